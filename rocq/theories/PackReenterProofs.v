(** Lemmas for C103. *)
From Coq Require Import Ascii ZArith NArith List Bool Permutation Lia Sorted PeanoNat.
From Verif Require Import Base ModelTypes ModelRegistry ModelJson ModelPacker SpecPacker PackName PackerProofs PackerSize PackerMore
  ModelPackThrow SpecPackThrow PackThrowProofs PackThrowFinal ModelPackReenter SpecPackReenter.
Import ListNotations.
Local Open Scope Z_scope.
Local Open Scope list_scope.

(** Multisets of records by sums. *)
Definition msum (f : push -> Z) (l : list push) : Z := fold_right (fun r s => f r + s) 0 l.
Lemma msum_app : forall f a b, msum f (a ++ b) = msum f a + msum f b.
Proof. induction a as [|x a IH]; intros b; simpl; [lia|]. rewrite IH. lia. Qed.
Lemma msum_perm : forall f a b, Permutation a b -> msum f a = msum f b.
Proof. induction 1; simpl; lia. Qed.
Lemma push_eq_dec : forall a b : push, {a = b} + {a <> b}.
Proof. repeat (decide equality; try apply Z.eq_dec; try apply ascii_dec). Qed.
Lemma perm_of_sums : forall a b, (forall f, msum f a = msum f b) -> Permutation a b.
Proof.
  intros a b H. apply (Permutation_count_occ push_eq_dec). intros x.
  assert (E : forall l, Z.of_nat (count_occ push_eq_dec l x) = msum (fun y => if push_eq_dec y x then 1 else 0) l).
  { induction l as [|y l IH]; [reflexivity|]. simpl. destruct (push_eq_dec y x); lia. }
  apply Nat2Z.inj. rewrite !E. apply H.
Qed.
Lemma names_weight_msum : forall l, names_weight l = msum (fun r => zlen (pu_name r) + 1) l.
Proof. induction l as [|r l IH]; [reflexivity|]. unfold names_weight in *. simpl. rewrite IH. lia. Qed.

Lemma flat_map_ev_app : forall (f : nev -> list push) a b, flat_map f (a ++ b) = flat_map f a ++ flat_map f b.
Proof. intros. apply flat_map_app. Qed.

Section Esc.
  Variable esc : name -> name.
  Variable left : name -> name.

  Notation nloop := (n_loop esc left).
  Notation ncalls := (n_calls esc left).
  Notation ncall1 := (n_call esc left).

  Lemma n_loop_S n p hs : nloop (S n) p hs =
    match pk_multi_pop esc p with
    | None => None
    | Some (None, p1) => Some (O, [], p1, hs)
    | Some (Some m, p1) =>
        match ncalls n (hd [] hs) p1 (tl hs) with
        | None => None
        | Some (evs, p2, hs2) =>
            match nloop n p2 hs2 with
            | None => None
            | Some (k, evs', p3, hs3) => Some (S k, NGiven false m :: evs ++ evs', p3, hs3)
            end
        end
    end.
  Proof. reflexivity. Qed.
  Lemma n_calls_nil n p hs : ncalls (S n) [] p hs = Some ([], p, hs).
  Proof. reflexivity. Qed.
  Lemma n_calls_cons n c cs p hs : ncalls (S n) (c :: cs) p hs =
    match ncall1 n c p hs with
    | None => None
    | Some (evs, p1, hs1) =>
        match ncalls n cs p1 hs1 with None => None | Some (evs', p2, hs2) => Some (evs ++ evs', p2, hs2) end
    end.
  Proof. reflexivity. Qed.
  Lemma n_call_pushout n p hs : ncall1 (S n) NPushout p hs =
    if pk_handler p then
      match nloop n p hs with
      | None => None
      | Some (k, evs, p1, hs1) =>
          match pk_top p1 with
          | [] => Some (evs ++ [NDone NPushout (NCount k)], p1, hs1)
          | _ => match compact (mk_mpush sep0 [] (map t_rec (pk_top p1))) with
                 | None => None
                 | Some (_, m) =>
                     match ncalls n (hd [] hs1) (pk_set (map (hollow_top left) (pk_top p1)) p1) (tl hs1) with
                     | None => None
                     | Some (evs', p2, hs2) =>
                         Some (evs ++ NGiven true m :: evs' ++ [NWiped (map t_rec (pk_top p2)); NDone NPushout (NCount k)],
                               pk_set [] p2, hs2)
                     end
                 end
          end
      end
    else Some ([NDone NPushout (NCount O)], p, hs).
  Proof. reflexivity. Qed.

  (** A larger bound changes nothing. *)
  Lemma more : forall n m, (n <= m)%nat ->
    (forall p hs x, nloop n p hs = Some x -> nloop m p hs = Some x) /\
    (forall cs p hs x, ncalls n cs p hs = Some x -> ncalls m cs p hs = Some x) /\
    (forall c p hs x, ncall1 n c p hs = Some x -> ncall1 m c p hs = Some x).
  Proof.
    induction n as [|n IH]; intros m L; [repeat split; intros; discriminate|]. destruct m as [|m]; [lia|].
    destruct (IH m ltac:(lia)) as (A & B & C). split; [|split].
    - intros p hs x. rewrite !n_loop_S. destruct (pk_multi_pop esc p) as [[[b|] p1]|]; [|auto|auto].
      destruct (ncalls n (hd [] hs) p1 (tl hs)) as [[[evs p2] hs2]|] eqn:E; [|discriminate]. rewrite (B _ _ _ _ E).
      destruct (nloop n p2 hs2) as [[[[k evs'] p3] hs3]|] eqn:F; [|discriminate]. rewrite (A _ _ _ F). auto.
    - intros [|c cs] p hs x; [auto|]. rewrite !n_calls_cons.
      destruct (ncall1 n c p hs) as [[[evs p2] hs2]|] eqn:E; [|discriminate]. rewrite (C _ _ _ _ E).
      destruct (ncalls n cs p2 hs2) as [[[evs' p3] hs3]|] eqn:F; [|discriminate]. rewrite (B _ _ _ _ F). auto.
    - intros c p hs x. destruct c; try (intros H; exact H). rewrite !n_call_pushout. destruct (pk_handler p); [|auto].
      destruct (nloop n p hs) as [[[[k evs] p1] hs1]|] eqn:E; [|discriminate]. rewrite (A _ _ _ E).
      destruct (pk_top p1) as [|t l] eqn:T; [auto|]. rewrite <- T. destruct (compact _) as [[b m0]|]; [|auto].
      destruct (ncalls n (hd [] hs1) _ (tl hs1)) as [[[evs' p2] hs2]|] eqn:F; [|discriminate]. rewrite (B _ _ _ _ F). auto.
  Qed.

  (** Termination: the records stored and the calls the handler may still make are used up. *)
  Definition wcall (c : ncall) : nat := S (length (n_pushed c)).
  Definition wcalls (cs : list ncall) : nat := list_sum (map wcall cs).
  Definition wprog (hs : hprog) : nat := list_sum (map wcalls hs).
  Lemma wprog_hd : forall hs, (wcalls (hd [] hs) + wprog (tl hs))%nat = wprog hs.
  Proof. destruct hs; reflexivity. Qed.

  Lemma SInv_set : forall o h p l, SInv o h p -> StronglySorted le_size l -> SInv o h (pk_set l p).
  Proof. intros o h p l (A & B & _) H. split; [exact A|]. split; [exact B|exact H]. Qed.
  Lemma SInv_hollow : forall o h p, SInv o h p -> SInv o h (pk_set (map (hollow_top left) (pk_top p)) p).
  Proof. intros o h p I. apply SInv_set; [exact I|]. apply (le_hollow left). apply I. Qed.
  Lemma multi_pop_len : forall o h p b p', opts_ok o -> SInv o h p -> pk_multi_pop esc p = Some (b, p') -> (length (pk_top p') <= length (pk_top p))%nat.
  Proof.
    intros o h p b p' Ho I H. pose proof (multi_pop_t esc o h p Ho I) as (b0 & p0 & E & _ & L). rewrite E in H. injection H as <- <-.
    destruct b0; [lia|]. clear L. unfold pk_multi_pop in E. destruct (pk_top p) as [|t0 l0] eqn:T; [injection E as <-; rewrite T; auto|].
    rewrite <- T in *. assert (EO : pk_opt p = o) by apply I. rewrite EO in E.
    destruct (po_json o <? mpush_size esc (po_jcompact o) mpush0); [injection E as <-; auto|].
    match type of E with context [pop_loop esc ?f ?a ?b ?c ?d ?e p] =>
      destruct (pop_loop_s esc o h Ho f a b c d e p I) as (res & p1 & F & I1 & (e' & -> & P)) end; [lia|].
    rewrite F in E. apply Permutation_length in P. unfold stored in P. rewrite app_length, !map_length in P. simpl app in E.
    destruct e' as [|x e']; [injection E as <-; lia|]. destruct (po_ncompact o); [|discriminate].
    destruct (compact _) as [[b m]|]; discriminate.
  Qed.

  Lemma ends : forall o h, opts_ok o -> forall n,
    (forall p hs, SInv o h p -> (2 * (length (pk_top p) + wprog hs) < n)%nat ->
      exists k evs p' hs', nloop n p hs = Some (k, evs, p', hs') /\ SInv o h p' /\
        (length (pk_top p') + wprog hs' <= length (pk_top p) + wprog hs)%nat) /\
    (forall cs p hs, SInv o h p -> (2 * (wcalls cs + length (pk_top p) + wprog hs) < n)%nat ->
      exists evs p' hs', ncalls n cs p hs = Some (evs, p', hs') /\ SInv o h p' /\
        (length (pk_top p') + wprog hs' <= wcalls cs + length (pk_top p) + wprog hs)%nat) /\
    (forall c p hs, SInv o h p -> (2 * (wcall c + length (pk_top p) + wprog hs) <= n)%nat ->
      exists evs p' hs', ncall1 n c p hs = Some (evs, p', hs') /\ SInv o h p' /\
        (length (pk_top p') + wprog hs' < wcall c + length (pk_top p) + wprog hs)%nat).
  Proof.
    intros o h Ho. induction n as [|n (A & B & C)].
    { split; [intros; lia|]. split; [intros; lia|]. intros c p hs _ L. unfold wcall in L. lia. }
    split; [|split].
    - intros p hs I L. rewrite n_loop_S. destruct (multi_pop_t esc o h p Ho I) as (b & p1 & E & I1 & Lt).
      pose proof (multi_pop_len o h p b p1 Ho I E) as Le. rewrite E. destruct b as [m|].
      2:{ eexists _, _, _, _. split; [reflexivity|]. split; [exact I1|]. lia. }
      pose proof (wprog_hd hs) as W.
      destruct (B (hd [] hs) p1 (tl hs) I1) as (evs & p2 & hs2 & -> & I2 & L2); [lia|].
      destruct (A p2 hs2 I2) as (k & evs' & p3 & hs3 & -> & I3 & L3); [lia|].
      eexists _, _, _, _. split; [reflexivity|]. split; [exact I3|]. lia.
    - intros [|c cs] p hs I L.
      { rewrite n_calls_nil. eexists _, _, _. split; [reflexivity|]. split; [exact I|]. cbn. lia. }
      rewrite n_calls_cons. change (wcalls (c :: cs)) with (wcall c + wcalls cs)%nat in *.
      destruct (C c p hs I) as (evs & p1 & hs1 & -> & I1 & L1); [lia|].
      destruct (B cs p1 hs1 I1) as (evs' & p2 & hs2 & -> & I2 & L2); [lia|].
      eexists _, _, _. split; [reflexivity|]. split; [exact I2|]. lia.
    - intros c p hs I L. unfold wcall in *. destruct c as [r|l|m| | |].
      + simpl. destruct (push_s esc o h p r Ho I) as (p1 & -> & I1 & P). eexists _, _, _. split; [reflexivity|]. split; [exact I1|].
        apply Permutation_length in P. unfold stored in P. cbn [length] in P. rewrite !map_length in P. lia.
      + simpl. destruct (pushes_s esc o h l p Ho I) as (p1 & -> & I1 & P). eexists _, _, _. split; [reflexivity|]. split; [exact I1|].
        apply Permutation_length in P. unfold stored in P. rewrite app_length, !map_length in P. lia.
      + simpl. pose proof (pop_s o h p m) as Q. destruct (pk_pop m p) as [[t p1]|].
        * destruct (Q t p1 I eq_refl) as (I1 & _ & E). eexists _, _, _. split; [reflexivity|]. split; [exact I1|]. lia.
        * eexists _, _, _. split; [reflexivity|]. split; [exact I|]. lia.
      + simpl. destruct (multi_pop_t esc o h p Ho I) as (b & p1 & E & I1 & _). pose proof (multi_pop_len o h p b p1 Ho I E). rewrite E.
        eexists _, _, _. split; [reflexivity|]. split; [exact I1|]. lia.
      + simpl. eexists _, _, _. split; [reflexivity|]. split; [apply SInv_set; [exact I|constructor]|]. simpl. lia.
      + rewrite n_call_pushout. destruct (pk_handler p).
        2:{ eexists _, _, _. split; [reflexivity|]. split; [exact I|]. cbn. lia. }
        cbn [n_pushed length] in L |- *.
        destruct (A p hs I) as (k & evs & p1 & hs1 & -> & I1 & L1); [lia|].
        destruct (pk_top p1) as [|t l] eqn:E.
        { eexists _, _, _. split; [reflexivity|]. split; [exact I1|]. rewrite E. cbn [length] in *. lia. }
        rewrite <- E in *. destruct (compact_total sep0 [] (map t_rec (pk_top p1))) as (b & m & -> & _).
        pose proof (wprog_hd hs1) as W.
        destruct (B (hd [] hs1) (pk_set (map (hollow_top left) (pk_top p1)) p1) (tl hs1)) as (evs' & p2 & hs2 & -> & I2 & L2).
        { now apply SInv_hollow. }
        { simpl pk_top. rewrite map_length. lia. }
        simpl pk_top in L2. rewrite map_length in L2.
        eexists _, _, _. split; [reflexivity|]. split; [apply SInv_set; [exact I2|constructor]|]. simpl pk_top. cbn [length]. lia.
  Qed.

  Lemma empties : forall n p hs evs p' hs', pk_handler p = true -> ncall1 n NPushout p hs = Some (evs, p', hs') -> stored p' = [].
  Proof.
    intros [|n] p hs evs p' hs' Hh H; [discriminate|]. rewrite n_call_pushout, Hh in H.
    destruct (nloop n p hs) as [[[[k evs0] p1] hs1]|]; [|discriminate]. destruct (pk_top p1) as [|t l] eqn:E.
    - injection H as <- <- <-. unfold stored. rewrite E. reflexivity.
    - destruct (compact _) as [[b m]|]; [|discriminate]. destruct (ncalls n _ _ _) as [[[evs' p2] hs2]|]; [|discriminate].
      injection H as <- <- <-. reflexivity.
  Qed.

  (** The numbers returned. *)
  Definition count_of (e : nev) : nat := match e with NDone _ (NCount k) => k | _ => O end.
  Definition in_loop (e : nev) : nat := match e with NGiven false _ => 1%nat | _ => O end.
  Definition esum (f : nev -> nat) (evs : list nev) : nat := list_sum (map f evs).
  Lemma esum_app f a b : esum f (a ++ b) = (esum f a + esum f b)%nat.
  Proof. unfold esum. rewrite map_app, list_sum_app. reflexivity. Qed.
  Lemma esum_cons f e a : esum f (e :: a) = (f e + esum f a)%nat.
  Proof. reflexivity. Qed.
  Lemma counts : forall n,
    (forall p hs k evs p' hs', nloop n p hs = Some (k, evs, p', hs') -> (k + esum count_of evs)%nat = esum in_loop evs) /\
    (forall cs p hs evs p' hs', ncalls n cs p hs = Some (evs, p', hs') -> esum count_of evs = esum in_loop evs) /\
    (forall c p hs evs p' hs', ncall1 n c p hs = Some (evs, p', hs') -> esum count_of evs = esum in_loop evs).
  Proof.
    induction n as [|n (A & B & C)]; [repeat split; intros; discriminate|]. split; [|split].
    - intros p hs k evs p' hs' H. rewrite n_loop_S in H. destruct (pk_multi_pop esc p) as [[[m|] p1]|]; [| |discriminate].
      2:{ injection H as <- <- <- <-. reflexivity. }
      destruct (ncalls n (hd [] hs) p1 (tl hs)) as [[[e1 p2] hs2]|] eqn:E; [|discriminate]. apply B in E.
      destruct (nloop n p2 hs2) as [[[[k2 e2] p3] hs3]|] eqn:F; [|discriminate]. apply A in F.
      injection H as <- <- <- <-. rewrite !esum_cons, !esum_app. cbn [in_loop count_of]. lia.
    - intros [|c cs] p hs evs p' hs' H; [injection H as <- <- <-; reflexivity|]. rewrite n_calls_cons in H.
      destruct (ncall1 n c p hs) as [[[e1 p2] hs2]|] eqn:E; [|discriminate]. apply C in E.
      destruct (ncalls n cs p2 hs2) as [[[e2 p3] hs3]|] eqn:F; [|discriminate]. apply B in F.
      injection H as <- <- <-. rewrite !esum_app. lia.
    - intros c p hs evs p' hs' H. destruct c as [r|l|m| | |].
      + simpl in H. destruct (pk_push esc r p); [|discriminate]. injection H as <- <- <-. reflexivity.
      + simpl in H. destruct (pk_pushes esc l p); [|discriminate]. injection H as <- <- <-. reflexivity.
      + simpl in H. destruct (pk_pop m p) as [[t p1]|]; injection H as <- <- <-; reflexivity.
      + simpl in H. destruct (pk_multi_pop esc p) as [[b p1]|]; [|discriminate]. injection H as <- <- <-. reflexivity.
      + simpl in H. injection H as <- <- <-. reflexivity.
      + rewrite n_call_pushout in H. destruct (pk_handler p); [|injection H as <- <- <-; reflexivity].
        destruct (nloop n p hs) as [[[[k e1] p1] hs1]|] eqn:E; [|discriminate]. apply A in E. destruct (pk_top p1) as [|t l].
        { injection H as <- <- <-. rewrite !esum_app. unfold esum at 2 4. simpl. lia. }
        destruct (compact _) as [[b m]|]; [|discriminate]. destruct (ncalls n _ _ _) as [[[e2 p2] hs2]|] eqn:F; [|discriminate].
        apply B in F. injection H as <- <- <-. rewrite !esum_app, !esum_cons, !esum_app. unfold esum at 3 6. simpl. lia.
  Qed.

  Section Parser.
    Variable jp : jparser.
    Hypothesis OK : jparser_ok jp.
    Notation recv := (recv jp).

    Definition all_batches (e : nev) : list mpush := ev_given e ++ ev_batches e.
    Definition ins (evs : list nev) : list push := flat_map ev_pushed evs ++ flat_map (ev_copies left jp) evs.
    Definition outs (evs : list nev) : list push :=
      recv (flat_map all_batches evs) ++ flat_map ev_singles evs ++ flat_map ev_cleared evs ++ flat_map ev_wiped evs.
    Lemma ins_app f a b : msum f (ins (a ++ b)) = msum f (ins a) + msum f (ins b).
    Proof. unfold ins. rewrite !flat_map_app, !msum_app. lia. Qed.
    Lemma outs_app f a b : msum f (outs (a ++ b)) = msum f (outs a) + msum f (outs b).
    Proof. unfold outs. rewrite !flat_map_app, recv_app, !msum_app. lia. Qed.
    Lemma ins_cons f e a : msum f (ins (e :: a)) = msum f (ins [e]) + msum f (ins a).
    Proof. apply (ins_app f [e] a). Qed.
    Lemma outs_cons f e a : msum f (outs (e :: a)) = msum f (outs [e]) + msum f (outs a).
    Proof. apply (outs_app f [e] a). Qed.

    Definition W (l : list push) : Z := names_weight l.
    Definition balanced (o : popts) (h : bool) (p p' : packer) (evs : list nev) : Prop :=
      SInv o h p' /\ Forall (good jp) (flat_map all_batches evs) /\
      forall f, msum f (stored p) + msum f (ins evs) = msum f (outs evs) + msum f (stored p').
    Definition light (p : packer) (evs : list nev) : Prop := names_weight (stored p) + names_weight (ins evs) <= two64.

    Lemma w_nonneg l : 0 <= names_weight l.
    Proof. apply names_weight_nonneg. Qed.
    Lemma balanced_w o h p p' evs : balanced o h p p' evs -> names_weight (stored p') <= names_weight (stored p) + names_weight (ins evs).
    Proof.
      intros (_ & _ & B). specialize (B (fun r => zlen (pu_name r) + 1)). pose proof (w_nonneg (outs evs)) as N.
      rewrite names_weight_msum in N. rewrite (names_weight_msum (stored p')), (names_weight_msum (stored p)), (names_weight_msum (ins evs)). lia.
    Qed.
    Lemma light_app p a b : light p (a ++ b) <-> names_weight (stored p) + names_weight (ins a) + names_weight (ins b) <= two64.
    Proof. unfold light. rewrite (names_weight_msum (ins (a ++ b))), (names_weight_msum (ins a)), (names_weight_msum (ins b)), ins_app. lia. Qed.
    Lemma light_l p a b : light p (a ++ b) -> light p a.
    Proof. rewrite light_app. unfold light. pose proof (w_nonneg (ins b)). lia. Qed.
    Lemma light_r o h p p1 a b : light p (a ++ b) -> balanced o h p p1 a -> light p1 b.
    Proof. rewrite light_app. intros L B. apply balanced_w in B. unfold light. lia. Qed.
    Lemma balanced_app o h p p1 p2 a b : balanced o h p p1 a -> balanced o h p1 p2 b -> balanced o h p p2 (a ++ b).
    Proof.
      intros (_ & G1 & B1) (I & G2 & B2). split; [exact I|]. split.
      - rewrite flat_map_app. apply Forall_app. auto.
      - intros f. rewrite ins_app, outs_app. specialize (B1 f). specialize (B2 f). lia.
    Qed.
    Lemma balanced_nil o h p : SInv o h p -> balanced o h p p [].
    Proof. intros I. split; [exact I|]. split; [constructor|]. intros f. unfold ins, outs. simpl. lia. Qed.
    Lemma perm_balance f a b : Permutation a b -> msum f a = msum f b.
    Proof. apply msum_perm. Qed.

    (** The tail of pushout: the records are moved into the batch, and the copies are left. *)
    Lemma given_behind o h p m : SInv o h p -> received jp m = stored p -> good jp m ->
      balanced o h p (pk_set (map (hollow_top left) (pk_top p)) p) [NGiven true m].
    Proof.
      intros I R G. split; [now apply SInv_hollow|]. split; [simpl; auto|]. intros f. unfold ins, outs. cbn [flat_map all_batches ev_pushed ev_copies ev_given
        ev_batches ev_singles ev_cleared ev_wiped app]. unfold PackThrowProofs.recv. cbn [flat_map]. rewrite !app_nil_r, R.
      unfold stored. cbn [pk_set pk_top]. rewrite !map_map. cbn [hollow_top t_rec]. lia.
    Qed.

    Lemma accounting : forall o h, opts_ok o -> forall n,
      (forall p hs k evs p' hs', SInv o h p -> nloop n p hs = Some (k, evs, p', hs') -> light p evs -> balanced o h p p' evs) /\
      (forall cs p hs evs p' hs', SInv o h p -> ncalls n cs p hs = Some (evs, p', hs') -> light p evs -> balanced o h p p' evs) /\
      (forall c p hs evs p' hs', SInv o h p -> ncall1 n c p hs = Some (evs, p', hs') -> light p evs -> balanced o h p p' evs).
    Proof.
      intros o h Ho. induction n as [|n (A & B & C)]; [repeat split; intros; discriminate|].
      assert (Pop : forall p b p', SInv o h p -> names_weight (stored p) <= two64 -> pk_multi_pop esc p = Some (b, p') ->
        SInv o h p' /\ match b with None => Permutation (stored p) (stored p') | Some m => good jp m /\ Permutation (stored p) (received jp m ++ stored p') end).
      { intros p b p' I L H. split; [|exact (multi_pop_s esc jp OK o h p b p' Ho I L H)].
        destruct (multi_pop_t esc o h p Ho I) as (b0 & p0 & E & I1 & _). rewrite E in H. injection H as <- <-. exact I1. }
      split; [|split].
      - intros p hs k evs p' hs' I H L. rewrite n_loop_S in H.
        assert (Lw : names_weight (stored p) <= two64) by (unfold light in L; pose proof (w_nonneg (ins evs)); lia).
        destruct (pk_multi_pop esc p) as [[b p1]|] eqn:E; [|discriminate]. destruct (Pop p b p1 I Lw E) as (I1 & Q). destruct b as [m|].
        2:{ injection H as <- <- <- <-. split; [exact I1|]. split; [constructor|]. intros f. rewrite (msum_perm f _ _ Q). unfold ins, outs. simpl. lia. }
        destruct (ncalls n (hd [] hs) p1 (tl hs)) as [[[e1 p2] hs2]|] eqn:E1; [|discriminate].
        destruct (nloop n p2 hs2) as [[[[k2 e2] p3] hs3]|] eqn:F; [|discriminate]. injection H as <- <- <- <-.
        change (NGiven false m :: e1 ++ e2) with ([NGiven false m] ++ e1 ++ e2) in *. destruct Q as (G & P).
        assert (B0 : balanced o h p p1 [NGiven false m]).
        { split; [exact I1|]. split; [simpl; auto|]. intros f. rewrite (msum_perm f _ _ P). unfold ins, outs. simpl. rewrite !app_nil_r, msum_app. lia. }
        pose proof (light_r o h p p1 _ _ L B0) as L1.
        pose proof (B _ _ _ _ _ _ I1 E1 (light_l _ _ _ L1)) as B1.
        pose proof (A _ _ _ _ _ _ (proj1 B1) F (light_r o h p1 p2 _ _ L1 B1)) as B2.
        eapply balanced_app; [exact B0|]. eapply balanced_app; eassumption.
      - intros [|c cs] p hs evs p' hs' I H L; [injection H as <- <- <-; now apply balanced_nil|]. rewrite n_calls_cons in H.
        destruct (ncall1 n c p hs) as [[[e1 p1] hs1]|] eqn:E; [|discriminate].
        destruct (ncalls n cs p1 hs1) as [[[e2 p2] hs2]|] eqn:F; [|discriminate]. injection H as <- <- <-.
        pose proof (C _ _ _ _ _ _ I E (light_l _ _ _ L)) as B1.
        pose proof (B _ _ _ _ _ _ (proj1 B1) F (light_r o h p p1 _ _ L B1)) as B2.
        eapply balanced_app; eassumption.
      - intros c p hs evs p' hs' I H L.
        assert (Lw : names_weight (stored p) <= two64) by (unfold light in L; pose proof (w_nonneg (ins evs)); lia).
        destruct c as [r|l|m| | |].
        + simpl in H. destruct (push_s esc o h p r Ho I) as (p1 & E & I1 & P). rewrite E in H. injection H as <- <- <-.
          split; [exact I1|]. split; [constructor|]. intros f. rewrite (msum_perm f _ _ P). unfold ins, outs. simpl. lia.
        + simpl in H. destruct (pushes_s esc o h l p Ho I) as (p1 & E & I1 & P). rewrite E in H. injection H as <- <- <-.
          split; [exact I1|]. split; [constructor|]. intros f. rewrite (msum_perm f _ _ P). unfold ins, outs. simpl. rewrite !app_nil_r, msum_app. lia.
        + simpl in H. pose proof (pop_s o h p m) as Q. destruct (pk_pop m p) as [[t p1]|]; injection H as <- <- <-.
          * destruct (Q t p1 I eq_refl) as (I1 & P & _). split; [exact I1|]. split; [constructor|]. intros f. rewrite (msum_perm f _ _ P). unfold ins, outs. simpl. lia.
          * split; [exact I|]. split; [constructor|]. intros f. unfold ins, outs. simpl. lia.
        + simpl in H. destruct (pk_multi_pop esc p) as [[b p1]|] eqn:E; [|discriminate]. injection H as <- <- <-.
          destruct (Pop p b p1 I Lw E) as (I1 & Q). split; [exact I1|]. destruct b as [m|].
          * destruct Q as (G & P). split; [simpl; auto|]. intros f. rewrite (msum_perm f _ _ P). unfold ins, outs. simpl. rewrite !app_nil_r, msum_app. lia.
          * split; [constructor|]. intros f. rewrite (msum_perm f _ _ Q). unfold ins, outs. simpl. lia.
        + simpl in H. injection H as <- <- <-. split; [apply SInv_set; [exact I|constructor]|]. split; [constructor|]. intros f.
          unfold ins, outs. simpl. rewrite !app_nil_r. unfold stored. lia.
        + rewrite n_call_pushout in H. destruct (pk_handler p).
          2:{ injection H as <- <- <-. split; [exact I|]. split; [constructor|]. intros f. unfold ins, outs. simpl. lia. }
          destruct (nloop n p hs) as [[[[k e1] p1] hs1]|] eqn:E; [|discriminate].
          assert (Fin : forall q j, SInv o h q -> balanced o h q q [NDone NPushout (NCount j)]).
          { intros q j Iq. split; [exact Iq|]. split; [constructor|]. intros f. unfold ins, outs. simpl. lia. }
          destruct (pk_top p1) as [|t l] eqn:T.
          { injection H as <- <- <-. pose proof (A _ _ _ _ _ _ I E (light_l _ _ _ L)) as B1. eapply balanced_app; [exact B1|]. apply Fin. apply B1. }
          rewrite <- T in *. destruct (compact (mk_mpush sep0 [] (map t_rec (pk_top p1)))) as [[b m]|] eqn:Q; [|discriminate].
          destruct (ncalls n _ _ _) as [[[e2 p2] hs2]|] eqn:F; [|discriminate]. injection H as <- <- <-.
          change (NGiven true m :: e2 ++ [NWiped (map t_rec (pk_top p2)); NDone NPushout (NCount k)]) with
            ([NGiven true m] ++ e2 ++ [NWiped (map t_rec (pk_top p2)); NDone NPushout (NCount k)]) in *.
          pose proof (A _ _ _ _ _ _ I E (light_l _ _ _ L)) as B1. pose proof (light_r o h p p1 _ _ L B1) as L1.
          assert (BG : balanced o h p1 (pk_set (map (hollow_top left) (pk_top p1)) p1) [NGiven true m]).
          { destruct (compact_readable jp OK sep0 (map t_rec (pk_top p1))) as (m' & Q' & S & (R1 & R2 & R3)); [discriminate| |].
            { fold (stored p1). unfold light in L1. match type of L1 with _ + names_weight ?x <= _ => pose proof (w_nonneg x) end. lia. }
            rewrite Q' in Q. injection Q as _ <-. apply given_behind; [apply B1|exact R2|]. split; [exact R1|]. now rewrite R2. }
          pose proof (light_r o h _ _ _ _ L1 BG) as L2.
          pose proof (B _ _ _ _ _ _ (proj1 BG) F (light_l _ _ _ L2)) as B2.
          eapply balanced_app; [exact B1|]. eapply balanced_app; [exact BG|]. eapply balanced_app; [exact B2|].
          change [NWiped (map t_rec (pk_top p2)); NDone NPushout (NCount k)] with ([NWiped (map t_rec (pk_top p2))] ++ [NDone NPushout (NCount k)]).
          eapply balanced_app; [|apply Fin].
          * split; [apply SInv_set; [apply B2|constructor]|]. split; [constructor|]. intros f. unfold ins, outs. simpl. rewrite !app_nil_r. unfold stored. simpl. lia.
          * apply SInv_set; [apply B2|constructor].
    Qed.

    (** A handler that is silent behind the loop. *)
    Lemma silent_r : forall a b, silent_behind (a ++ b) -> silent_behind b.
    Proof.
      induction a as [|e a IH]; intros b H; [exact H|]. apply IH. cbn [app silent_behind] in H. destruct e as [[|] m|l|l|c r]; try exact H.
      destruct (a ++ b) as [|x t]; [contradiction|]. destruct x; try contradiction. exact H.
    Qed.
    Definition opens (evs : list nev) : Prop := match evs with NWiped _ :: _ => False | _ => True end.
    Lemma silent_l : forall a b, silent_behind (a ++ b) -> (exists e a', a = a' ++ [e] /\ match e with NGiven true _ => False | _ => True end) \/ a = [] -> silent_behind a.
    Proof.
      induction a as [|e a IH]; intros b H L; [exact I|].
      assert (L' : (exists x a', a = a' ++ [x] /\ match x with NGiven true _ => False | _ => True end) \/ a = []).
      { destruct L as [(x & a' & E & X)|E]; [|discriminate]. destruct a' as [|y a']; [right; now injection E|]. left. injection E as _ ->. eauto. }
      cbn [app silent_behind] in H |- *. destruct e as [[|] m|l|l|c r]; try (apply (IH b); auto).
      destruct a as [|x a].
      - destruct L as [(x & a' & E & X)|E]; [|discriminate]. destruct a' as [|y [|z a']]; try discriminate. injection E as <-. contradiction.
      - cbn [app] in H. destruct x; try contradiction. apply (IH b); auto.
    Qed.
    Definition closed (evs : list nev) : Prop := (exists e a', evs = a' ++ [e] /\ match e with NGiven true _ => False | _ => True end) \/ evs = [].
    Lemma closed_app a b : closed a -> closed b -> closed (a ++ b).
    Proof. intros A [(e & b' & -> & X)| -> ]; [left; exists e, (a ++ b'); now rewrite app_assoc|now rewrite app_nil_r]. Qed.
    Lemma shape : forall n,
      (forall p hs k evs p' hs', nloop n p hs = Some (k, evs, p', hs') -> closed evs /\ opens evs) /\
      (forall cs p hs evs p' hs', ncalls n cs p hs = Some (evs, p', hs') -> closed evs /\ opens evs /\ (evs = [] -> cs = [] /\ p' = p)) /\
      (forall c p hs evs p' hs', ncall1 n c p hs = Some (evs, p', hs') -> closed evs /\ opens evs /\ evs <> []).
    Proof.
      induction n as [|n (A & B & C)]; [repeat split; intros; discriminate|].
      assert (O1 : forall a b, opens a -> opens b -> opens (a ++ b)) by (intros [|e a] b; [auto|destruct e; auto]).
      assert (C1 : forall e, match e with NGiven true _ => False | _ => True end -> closed [e]) by (intros e H; left; exists e, []; auto).
      split; [|split].
      - intros p hs k evs p' hs' H. rewrite n_loop_S in H. destruct (pk_multi_pop esc p) as [[[m|] p1]|]; [| |discriminate].
        2:{ injection H as <- <- <- <-. split; [right; reflexivity|exact I]. }
        destruct (ncalls n (hd [] hs) p1 (tl hs)) as [[[e1 p2] hs2]|] eqn:E; [|discriminate]. apply B in E.
        destruct (nloop n p2 hs2) as [[[[k2 e2] p3] hs3]|] eqn:F; [|discriminate]. apply A in F.
        injection H as <- <- <- <-. split; [|exact I]. apply (closed_app [NGiven false m]); [now apply C1|]. apply closed_app; tauto.
      - intros [|c cs] p hs evs p' hs' H; [injection H as <- <- <-; split; [right; reflexivity|]; split; [exact I|auto]|]. rewrite n_calls_cons in H.
        destruct (ncall1 n c p hs) as [[[e1 p2] hs2]|] eqn:E; [|discriminate]. apply C in E.
        destruct (ncalls n cs p2 hs2) as [[[e2 p3] hs3]|] eqn:F; [|discriminate]. apply B in F.
        injection H as <- <- <-. split; [apply closed_app; tauto|]. split; [apply O1; tauto|]. intros Z. apply app_eq_nil in Z. tauto.
      - intros c p hs evs p' hs' H.
        assert (Fin : forall r, closed [NDone c r] /\ opens [NDone c r] /\ [NDone c r] <> []) by (intros r; split; [apply C1; exact I|split; [exact I|discriminate]]).
        destruct c as [r|l|m| | |].
        + simpl in H. destruct (pk_push esc r p); [|discriminate]. injection H as <- <- <-. apply Fin.
        + simpl in H. destruct (pk_pushes esc l p); [|discriminate]. injection H as <- <- <-. apply Fin.
        + simpl in H. destruct (pk_pop m p) as [[t p1]|]; injection H as <- <- <-; apply Fin.
        + simpl in H. destruct (pk_multi_pop esc p) as [[b p1]|]; [|discriminate]. injection H as <- <- <-. apply Fin.
        + simpl in H. injection H as <- <- <-. split; [|split; [exact I|discriminate]]. apply (closed_app [_]); apply C1; exact I.
        + rewrite n_call_pushout in H. destruct (pk_handler p); [|injection H as <- <- <-; apply Fin].
          destruct (nloop n p hs) as [[[[k e1] p1] hs1]|] eqn:E; [|discriminate]. apply A in E. destruct (pk_top p1) as [|t l].
          { injection H as <- <- <-. split; [apply closed_app; [tauto|apply Fin]|]. split; [apply O1; [tauto|exact I]|]. intros Z. apply app_eq_nil in Z. destruct Z. discriminate. }
          destruct (compact _) as [[b m]|]; [|discriminate]. destruct (ncalls n _ _ _) as [[[e2 p2] hs2]|] eqn:F; [|discriminate].
          injection H as <- <- <-. split; [|split].
          * left. eexists (NDone NPushout (NCount k)), (e1 ++ NGiven true m :: e2 ++ [NWiped (map t_rec (pk_top p2))]).
            split; [|exact I]. rewrite <- app_assoc. cbn [app]. rewrite <- app_assoc. reflexivity.
          * apply O1; [tauto|exact I].
          * intros Z. apply app_eq_nil in Z. destruct Z. discriminate.
    Qed.

    Lemma silent : forall o h, opts_ok o -> forall n,
      (forall p hs k evs p' hs', SInv o h p -> nloop n p hs = Some (k, evs, p', hs') -> light p evs -> silent_behind evs ->
         flat_map ev_wiped evs = flat_map (ev_copies left jp) evs) /\
      (forall cs p hs evs p' hs', SInv o h p -> ncalls n cs p hs = Some (evs, p', hs') -> light p evs -> silent_behind evs ->
         flat_map ev_wiped evs = flat_map (ev_copies left jp) evs) /\
      (forall c p hs evs p' hs', SInv o h p -> ncall1 n c p hs = Some (evs, p', hs') -> light p evs -> silent_behind evs ->
         flat_map ev_wiped evs = flat_map (ev_copies left jp) evs).
    Proof.
      intros o h Ho. induction n as [|n (A & B & C)]; [repeat split; intros; discriminate|].
      destruct (accounting o h Ho n) as (Aa & Ab & Ac). destruct (shape n) as (Sa & Sb & Sc). split; [|split].
      - intros p hs k evs p' hs' I H L S. assert (L0 := L). rewrite n_loop_S in H.
        assert (Lw : names_weight (stored p) <= two64) by (unfold light in L; pose proof (w_nonneg (ins evs)); lia).
        destruct (multi_pop_t esc o h p Ho I) as (b & p1 & E & I1 & _). rewrite E in H.
        pose proof (multi_pop_s esc jp OK o h p b p1 Ho I Lw E) as Q. destruct b as [m|].
        2:{ injection H as <- <- <- <-. reflexivity. }
        destruct (ncalls n (hd [] hs) p1 (tl hs)) as [[[e1 p2] hs2]|] eqn:E1; [|discriminate].
        destruct (nloop n p2 hs2) as [[[[k2 e2] p3] hs3]|] eqn:F; [|discriminate]. injection H as <- <- <- <-.
        change (NGiven false m :: e1 ++ e2) with ([NGiven false m] ++ e1 ++ e2) in *. destruct Q as (G & P).
        assert (B0 : balanced o h p p1 [NGiven false m]).
        { split; [exact I1|]. split; [simpl; auto|]. intros f. rewrite (msum_perm f _ _ P). unfold ins, outs. simpl. rewrite !app_nil_r, msum_app. lia. }
        pose proof (light_r o h p p1 _ _ L B0) as L1. pose proof (Ab _ _ _ _ _ _ I1 E1 (light_l _ _ _ L1)) as B1.
        pose proof (light_r o h p1 p2 _ _ L1 B1) as L2. apply silent_r in S. assert (S2 := silent_r _ _ S).
        apply silent_l in S; [|apply (Sb _ _ _ _ _ _ E1)].
        rewrite !flat_map_app. rewrite (B _ _ _ _ _ _ I1 E1 (light_l _ _ _ L1) S), (A _ _ _ _ _ _ (proj1 B1) F L2 S2). reflexivity.
      - intros [|c cs] p hs evs p' hs' I H L S; [injection H as <- <- <-; reflexivity|]. rewrite n_calls_cons in H.
        destruct (ncall1 n c p hs) as [[[e1 p1] hs1]|] eqn:E; [|discriminate].
        destruct (ncalls n cs p1 hs1) as [[[e2 p2] hs2]|] eqn:F; [|discriminate]. injection H as <- <- <-.
        pose proof (Ac _ _ _ _ _ _ I E (light_l _ _ _ L)) as B1. pose proof (light_r o h p p1 _ _ L B1) as L2. assert (S2 := silent_r _ _ S).
        apply silent_l in S; [|apply (Sc _ _ _ _ _ _ E)].
        rewrite !flat_map_app. rewrite (C _ _ _ _ _ _ I E (light_l _ _ _ L) S), (B _ _ _ _ _ _ (proj1 B1) F L2 S2). reflexivity.
      - intros c p hs evs p' hs' I H L S. destruct c as [r|l|m| | |].
        + simpl in H. destruct (pk_push esc r p); [|discriminate]. injection H as <- <- <-. reflexivity.
        + simpl in H. destruct (pk_pushes esc l p); [|discriminate]. injection H as <- <- <-. reflexivity.
        + simpl in H. destruct (pk_pop m p) as [[t p1]|]; injection H as <- <- <-; reflexivity.
        + simpl in H. destruct (pk_multi_pop esc p) as [[b p1]|]; [|discriminate]. injection H as <- <- <-. reflexivity.
        + simpl in H. injection H as <- <- <-. reflexivity.
        + rewrite n_call_pushout in H. destruct (pk_handler p); [|injection H as <- <- <-; reflexivity].
          destruct (nloop n p hs) as [[[[k e1] p1] hs1]|] eqn:E; [|discriminate]. destruct (pk_top p1) as [|t l] eqn:T.
          { injection H as <- <- <-. apply silent_l in S; [|apply (Sa _ _ _ _ _ _ E)]. rewrite !flat_map_app.
            rewrite (A _ _ _ _ _ _ I E (light_l _ _ _ L) S). reflexivity. }
          rewrite <- T in *. destruct (compact (mk_mpush sep0 [] (map t_rec (pk_top p1)))) as [[b m]|] eqn:Q; [|discriminate].
          destruct (ncalls n _ _ _) as [[[e2 p2] hs2]|] eqn:F; [|discriminate]. injection H as <- <- <-.
          pose proof (Aa _ _ _ _ _ _ I E (light_l _ _ _ L)) as B1. pose proof (light_r o h p p1 _ _ L B1) as L1.
          assert (S2 := silent_r _ _ S). apply silent_l in S; [|apply (Sa _ _ _ _ _ _ E)].
          destruct (Sb _ _ _ _ _ _ F) as (_ & Op & Em).
          assert (Z : e2 = []). { destruct e2 as [|x e2]; [reflexivity|]. destruct x; cbn [app silent_behind opens] in S2, Op; contradiction. }
          destruct (Em Z) as (_ & ->). subst e2. rewrite !flat_map_app. rewrite (A _ _ _ _ _ _ I E (light_l _ _ _ L) S). f_equal.
          destruct (compact_readable jp OK sep0 (map t_rec (pk_top p1))) as (m' & Q' & _ & (R1 & R2 & R3)); [discriminate| |].
          { fold (stored p1). unfold light in L1. match type of L1 with _ + names_weight ?x <= _ => pose proof (w_nonneg x) end. lia. }
          rewrite Q' in Q. injection Q as _ <-. simpl. rewrite !app_nil_r, R2, !map_map. reflexivity.
    Qed.
  End Parser.

  (** Every record fits: nothing is given behind the loop. *)
  Definition settled (o : popts) (h : bool) (p : packer) : Prop := PInv esc o h p /\ Forall (fits esc o) (stored p).
  Lemma behinds_app a b : behinds (a ++ b) = (behinds a + behinds b)%nat.
  Proof. unfold behinds. rewrite filter_app, app_length. reflexivity. Qed.
  Lemma fitting : forall o h, opts_ok o -> forall n,
    (forall p hs k evs p' hs', settled o h p -> nloop n p hs = Some (k, evs, p', hs') -> Forall (fits esc o) (flat_map ev_pushed evs) ->
       settled o h p' /\ behinds evs = O /\ stored p' = []) /\
    (forall cs p hs evs p' hs', settled o h p -> ncalls n cs p hs = Some (evs, p', hs') -> Forall (fits esc o) (flat_map ev_pushed evs) ->
       settled o h p' /\ behinds evs = O) /\
    (forall c p hs evs p' hs', settled o h p -> ncall1 n c p hs = Some (evs, p', hs') -> Forall (fits esc o) (flat_map ev_pushed evs) ->
       settled o h p' /\ behinds evs = O).
  Proof.
    intros o h Ho. induction n as [|n (A & B & C)]; [repeat split; intros; discriminate|].
    assert (Pop : forall p b p', settled o h p -> pk_multi_pop esc p = Some (b, p') -> settled o h p').
    { intros p b p' (I & F) H. destruct (multi_pop_inv esc o h p Ho I) as (b0 & p0 & E & I1 & _).
      assert (X := H). rewrite E in X. injection X as <- <-. split; [exact I1|].
      pose proof (multi_pop_incl esc o h p b0 p0 Ho (PInv_SInv esc o h p I) H). rewrite Forall_forall in *. auto. }
    split; [|split].
    - intros p hs k evs p' hs' I H F. rewrite n_loop_S in H. destruct (pk_multi_pop esc p) as [[[m|] p1]|] eqn:E; [| |discriminate].
      2:{ injection H as <- <- <- <-. split; [exact (Pop _ _ _ I E)|]. split; [reflexivity|]. destruct I as (I & Fs).
          exact (multi_pop_fits esc o h p p1 Ho I Fs E). }
      destruct (ncalls n (hd [] hs) p1 (tl hs)) as [[[e1 p2] hs2]|] eqn:E1; [|discriminate].
      destruct (nloop n p2 hs2) as [[[[k2 e2] p3] hs3]|] eqn:F1; [|discriminate]. injection H as <- <- <- <-.
      cbn [flat_map ev_pushed app] in F. rewrite flat_map_app in F. apply Forall_app in F. destruct F as (Fa & Fb).
      destruct (B _ _ _ _ _ _ (Pop _ _ _ I E) E1 Fa) as (I2 & N2). destruct (A _ _ _ _ _ _ I2 F1 Fb) as (I3 & N3 & Em).
      split; [exact I3|]. split; [|exact Em]. change (NGiven false m :: e1 ++ e2) with ([NGiven false m] ++ e1 ++ e2).
      rewrite !behinds_app, N2, N3. reflexivity.
    - intros [|c cs] p hs evs p' hs' I H F; [injection H as <- <- <-; split; [exact I|reflexivity]|]. rewrite n_calls_cons in H.
      destruct (ncall1 n c p hs) as [[[e1 p1] hs1]|] eqn:E; [|discriminate].
      destruct (ncalls n cs p1 hs1) as [[[e2 p2] hs2]|] eqn:F1; [|discriminate]. injection H as <- <- <-.
      rewrite flat_map_app in F. apply Forall_app in F. destruct F as (Fa & Fb).
      destruct (C _ _ _ _ _ _ I E Fa) as (I2 & N2). destruct (B _ _ _ _ _ _ I2 F1 Fb) as (I3 & N3).
      split; [exact I3|]. rewrite behinds_app, N2, N3. reflexivity.
    - intros c p hs evs p' hs' I H F. destruct c as [r|l|m| | |].
      + simpl in H. destruct I as (I & Fs). destruct (push_ok esc o h p r Ho I) as (p1 & t & E & I1 & T & _ & P). rewrite E in H. injection H as <- <- <-.
        split; [|reflexivity]. split; [exact I1|]. unfold stored. eapply Permutation_Forall; [symmetry; apply (Permutation_map t_rec P)|].
        simpl. rewrite T. constructor; [now inversion F|exact Fs].
      + simpl in H. destruct I as (I & Fs). destruct (pushes_ok esc o h l p Ho I) as (p1 & E & I1 & P). rewrite E in H. injection H as <- <- <-.
        split; [|reflexivity]. split; [exact I1|]. eapply Permutation_Forall; [symmetry; exact P|]. simpl in F. rewrite app_nil_r in F. apply Forall_app. auto.
      + simpl in H. assert (I' := I). destruct I as (I & Fs). pose proof (pop_ok esc o h p m I) as Q. destruct (pk_pop m p) as [[t p1]|]; injection H as <- <- <-.
        * destruct Q as (I1 & _ & P & _). split; [|reflexivity]. split; [exact I1|].
          pose proof (Permutation_Forall (Permutation_map t_rec P) Fs) as F1. simpl in F1. now inversion F1.
        * split; [exact I'|reflexivity].
      + simpl in H. destruct (pk_multi_pop esc p) as [[b p1]|] eqn:E; [|discriminate]. injection H as <- <- <-.
        split; [exact (Pop _ _ _ I E)|destruct b; reflexivity].
      + simpl in H. injection H as <- <- <-. split; [|reflexivity]. destruct I as ((X1 & X2 & _) & _). split; [|constructor].
        split; [exact X1|]. split; [exact X2|]. split; constructor.
      + rewrite n_call_pushout in H. destruct (pk_handler p); [|injection H as <- <- <-; split; [exact I|reflexivity]].
        destruct (nloop n p hs) as [[[[k e1] p1] hs1]|] eqn:E; [|discriminate].
        assert (Fe : Forall (fits esc o) (flat_map ev_pushed e1)).
        { destruct (pk_top p1) as [|t l]; [injection H as <- <- <-|destruct (compact _) as [[b m]|]; [|discriminate];
            destruct (ncalls n _ _ _) as [[[e2 p2] hs2]|]; [|discriminate]; injection H as <- <- <-];
            rewrite flat_map_app in F; apply Forall_app in F; apply F. }
        destruct (A _ _ _ _ _ _ I E Fe) as (I1 & N1 & Em). unfold stored in Em. apply map_eq_nil in Em. rewrite Em in H.
        injection H as <- <- <-. split; [exact I1|]. rewrite behinds_app, N1. reflexivity.
  Qed.
  Lemma no_behind : forall jp evs, behinds evs = O -> silent_behind evs /\ flat_map (ev_copies left jp) evs = [].
  Proof.
    intros jp. induction evs as [|e evs IH]; intros H; [split; [exact I|reflexivity]|].
    destruct e as [[|] m|l|l|c r]; cbn [silent_behind flat_map ev_copies app]; try discriminate; apply IH; exact H.
  Qed.

  (** A handler that only receives. *)
  Lemma loop_receives : forall fuel p ms p' hs, Forall (eq []) hs -> pushout_loop esc fuel p = Some (ms, p') ->
    nloop (S fuel) p hs = Some (length ms, map (NGiven false) ms, p', skipn (length ms) hs).
  Proof.
    induction fuel as [|fuel IH]; intros p ms p' hs Hh H; [discriminate|]. cbn [pushout_loop] in H. rewrite n_loop_S.
    destruct (pk_multi_pop esc p) as [[[m|] p1]|]; [| |discriminate].
    - destruct (pushout_loop esc fuel p1) as [[ms' p2]|] eqn:E; [|discriminate]. injection H as <- <-.
      assert (X : hd [] hs = [] /\ Forall (eq []) (tl hs)) by (destruct Hh as [|? ? Hx Hh]; split; cbn; auto). destruct X as (-> & Ht). rewrite n_calls_nil. rewrite (IH _ _ _ _ Ht E). cbn [length map app].
      destruct hs; [rewrite !skipn_nil|]; reflexivity.
    - injection H as <- <-. reflexivity.
  Qed.
  Lemma receives : forall p k ms p' hs, Forall (eq []) hs -> pk_pushout esc p = Some (k, ms, p') ->
    exists n evs hs', ncall1 n NPushout p hs = Some (evs ++ [NDone NPushout (NCount k)], p', hs') /\ flat_map ev_given evs = ms /\ flat_map ev_pushed evs = [].
  Proof.
    intros p k ms p' hs Hh H. unfold pk_pushout in H. exists (S (S (S (length (pk_top p))))). rewrite n_call_pushout. destruct (pk_handler p).
    2:{ injection H as <- <- <-. exists [], hs. auto. }
    destruct (pushout_loop esc (S (length (pk_top p))) p) as [[ms1 p1]|] eqn:E; [|discriminate]. rewrite (loop_receives _ _ _ _ _ Hh E).
    assert (G : forall l, flat_map ev_given (map (NGiven false) l) = l) by (induction l as [|x l IHl]; [reflexivity|cbn; now rewrite IHl]).
    assert (P : forall l, flat_map ev_pushed (map (NGiven false) l) = []) by (induction l as [|x l IHl]; [reflexivity|exact IHl]).
    destruct (pk_top p1) as [|t l] eqn:T.
    { injection H as <- <- <-. eexists _, _. split; [reflexivity|]. auto. }
    rewrite <- T in *. destruct (compact _) as [[b m]|]; [|discriminate]. injection H as <- <- <-.
    assert (X : forall j (hs : hprog), Forall (eq []) hs -> hd [] (skipn j hs) = []).
    { induction j as [|j IHj]; intros l0 F; (destruct l0 as [|x l0]; [reflexivity|]); inversion F; subst; [reflexivity|]. apply IHj. assumption. }
    rewrite (X _ _ Hh), n_calls_nil. eexists (map (NGiven false) ms1 ++ NGiven true m :: [NWiped _]), _. split; [rewrite <- app_assoc; reflexivity|].
    rewrite !flat_map_app, G, P. split; reflexivity.
  Qed.
End Esc.
