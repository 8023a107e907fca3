(** Lemmas for C92: calls that fail compared with calls that do not. *)
From Coq Require Import Ascii ZArith NArith List Bool Permutation Lia Sorted PeanoNat.
From Verif Require Import Base ModelTypes ModelRegistry ModelJson ModelPacker SpecPacker PackName PackerProofs PackerSize PackerMore
  ModelPackThrow SpecPackThrow PackThrowProofs.
Import ListNotations.
Local Open Scope Z_scope.
Local Open Scope list_scope.

Lemma split_batches : forall r, y_batches r = y_accepted r ++ y_refused r.
Proof.
  assert (L : forall l : list mpush, l = removelast l ++ match rev l with [] => [] | b :: _ => [b] end).
  { intros l. induction l as [|y l _] using rev_ind; [reflexivity|]. rewrite removelast_last, rev_app_distr. reflexivity. }
  intros [|x|b|[n| |] bs]; cbn [y_batches y_accepted y_refused]; try (rewrite app_nil_r; reflexivity); apply L.
Qed.

Section Esc.
  Variable esc : name -> name.
  Variable left : name -> name.

  Lemma loop_x_cut : forall fuel p ms p', pushout_loop esc fuel p = Some (ms, p') -> forall k,
    exists p1 k', pushout_loop_x esc fuel (Some k) p = Some (firstn (S k) ms, (k <? length ms)%nat, k', p1) /\
      ((length ms <= k)%nat -> p1 = p' /\ k' = Some (k - length ms)%nat) /\
      ((k < length ms)%nat -> pk_run esc p (repeat PMultiPop (S k)) = Some (map (fun b => RBatch (Some b)) (firstn (S k) ms), p1) /\
        exists f, (f <= fuel)%nat /\ pushout_loop esc f p1 = Some (skipn (S k) ms, p')).
  Proof.
    induction fuel as [|fuel IH]; intros p ms p' H k; [discriminate|]. cbn [pushout_loop] in H. cbn [pushout_loop_x].
    destruct (pk_multi_pop esc p) as [[[m|] p1]|] eqn:E; [| |discriminate].
    - destruct (pushout_loop esc fuel p1) as [[ms' p2]|] eqn:F; [|discriminate]. injection H as <- <-.
      destruct k as [|k].
      + exists p1, (Some O). split; [reflexivity|]. split; [simpl; lia|]. intros _. split.
        * cbn [repeat pk_run pk_do]. rewrite E. reflexivity.
        * exists fuel. split; [lia|exact F].
      + cbn [turn]. destruct (IH _ _ _ F k) as (q & k' & -> & A & B). exists q, k'. split; [reflexivity|]. split.
        * cbn [length]. intros L. apply A. lia.
        * cbn [length]. intros L. destruct B as (B1 & f & B2 & B3); [lia|]. split.
          -- remember (S k) as K. cbn [repeat pk_run pk_do firstn map]. rewrite E, B1. reflexivity.
          -- exists f. split; [lia|exact B3].
    - injection H as <- <-. exists p1, (Some k). split; [reflexivity|]. split; [|simpl; lia].
      intros _. rewrite Nat.sub_0_r. auto.
  Qed.

  Lemma loop_x_none : forall fuel p, pushout_loop_x esc fuel None p =
    option_map (fun q => (fst q, false, None, snd q)) (pushout_loop esc fuel p).
  Proof.
    induction fuel as [|fuel IH]; intros p; [reflexivity|]. cbn [pushout_loop pushout_loop_x turn].
    destruct (pk_multi_pop esc p) as [[[m|] p1]|]; [|reflexivity|reflexivity]. rewrite IH.
    destruct (pushout_loop esc fuel p1) as [[ms p2]|]; reflexivity.
  Qed.

  Lemma pushout_x_none : forall p, pk_pushout_x esc left None p =
    option_map (fun q => (OReturned (fst (fst q)), snd (fst q), snd q)) (pk_pushout esc p).
  Proof.
    intros p. unfold pk_pushout_x, pk_pushout. destruct (pk_handler p); [|reflexivity]. rewrite loop_x_none.
    destruct (pushout_loop esc _ p) as [[ms p1]|]; [|reflexivity]. simpl. destruct (pk_top p1) as [|t l]; [reflexivity|].
    destruct (compact _) as [[b m]|]; reflexivity.
  Qed.

  Lemma do_x_plain : forall c p, never c -> pk_do_x esc left c p =
    option_map (fun q => (y_result (fst q), snd q)) (pk_do esc (y_plain c) p).
  Proof.
    intros [r|l|m| |[k|]] p H; cbn [pk_do_x pk_do y_plain].
    - destruct (pk_push esc r p); reflexivity.
    - destruct (pk_pushes esc l p); reflexivity.
    - destruct (pk_pop m p) as [[t q]|]; reflexivity.
    - destruct (pk_multi_pop esc p) as [[b q]|]; reflexivity.
    - destruct H.
    - rewrite pushout_x_none. destruct (pk_pushout esc p) as [[[n ms] q]|]; reflexivity.
  Qed.
  Lemma run_x_plain : forall cs p, Forall never cs -> pk_run_x esc left p cs =
    option_map (fun q => (map y_result (fst q), snd q)) (pk_run esc p (map y_plain cs)).
  Proof.
    induction cs as [|c cs IH]; intros p H; [reflexivity|]. inversion H; subst. cbn [pk_run_x pk_run map].
    rewrite do_x_plain by assumption. destruct (pk_do esc (y_plain c) p) as [[r q]|]; [|reflexivity]. cbn [option_map fst snd].
    rewrite IH by assumption. destruct (pk_run esc q (map y_plain cs)) as [[rs q']|]; reflexivity.
  Qed.

  (** The call that fails at the k-th handler call, from the call that does not. *)
  Lemma pushout_x_cut : forall p n ms p', pk_pushout esc p = Some (n, ms, p') -> forall k,
    exists p1, pk_pushout_x esc left (Some k) p =
      Some (if (length ms <=? k)%nat then OReturned n else if (k <? n)%nat then OThrewLoop else OThrewTail, firstn (S k) ms, p1) /\
      ((length ms <= k)%nat -> p1 = p') /\
      ((k < n)%nat -> pk_run esc p (repeat PMultiPop (S k)) = Some (map (fun b => RBatch (Some b)) (firstn (S k) ms), p1) /\
         (SInv (pk_opt p) true p -> (pk_opt p1 = pk_opt p /\ SInv (pk_opt p) true p1 -> opts_ok (pk_opt p) ->
           pk_pushout esc p1 = Some ((n - S k)%nat, skipn (S k) ms, p')))) /\
      ((k < length ms)%nat -> (n <= k)%nat -> k = n /\ length ms = S n /\ pk_clear p1 = p').
  Proof.
    intros p n ms p' H k. unfold pk_pushout in H. unfold pk_pushout_x. destruct (pk_handler p) eqn:EH.
    2:{ injection H as <- <- <-. exists p. split; [reflexivity|]. split; [auto|]. split; [lia|]. simpl. lia. }
    destruct (pushout_loop esc (S (length (pk_top p))) p) as [[ms1 p1]|] eqn:E; [|discriminate].
    destruct (loop_x_cut _ _ _ _ E k) as (q & k' & -> & A & B).
    assert (Early : (k < length ms1)%nat -> SInv (pk_opt p) true p ->
      pk_opt q = pk_opt p /\ SInv (pk_opt p) true q -> opts_ok (pk_opt p) ->
      pushout_loop esc (S (length (pk_top q))) q = Some (skipn (S k) ms1, p1)).
    { intros Hk _ (Eo & Iq) Ho. destruct (B Hk) as (_ & f & Lf & Bf).
      destruct (loop_x_t esc (pk_opt p) true Ho (S (length (pk_top q))) None q Iq) as (a & b & c & d & X & _); [lia|].
      rewrite loop_x_none in X. destruct (pushout_loop esc (S (length (pk_top q))) q) as [[u v]|] eqn:Y; [|discriminate].
      assert (Z1 : pushout_loop esc (f + S (length (pk_top q))) q = Some (u, v)) by (eapply pushout_loop_fuel; [exact Y|lia]).
      assert (Z2 : pushout_loop esc (f + S (length (pk_top q))) q = Some (skipn (S k) ms1, p1)) by (eapply pushout_loop_fuel; [exact Bf|lia]).
      congruence. }
    destruct (k <? length ms1)%nat eqn:Lt.
    - apply Nat.ltb_lt in Lt. destruct (B Lt) as (B1 & _). exists q.
      assert (F1 : forall m : mpush, firstn (S k) (ms1 ++ [m]) = firstn (S k) ms1).
      { intros m. rewrite firstn_app. replace (S k - length ms1)%nat with O by lia. simpl firstn at 2. apply app_nil_r. }
      assert (F2 : forall m : mpush, skipn (S k) (ms1 ++ [m]) = skipn (S k) ms1 ++ [m]).
      { intros m. rewrite skipn_app. replace (S k - length ms1)%nat with O by lia. reflexivity. }
      assert (HQ : forall o, SInv o true q -> pk_handler q = true) by (intros o X; apply X).
      destruct (pk_top p1) as [|t l] eqn:T.
      + injection H as <- <- <-. rewrite (proj2 (Nat.leb_gt _ _) Lt), (proj2 (Nat.ltb_lt _ _) Lt). split; [reflexivity|].
        split; [lia|]. split; [|lia]. intros _. split; [exact B1|]. intros I C Ho. pose proof (Early Lt I C Ho) as X.
        unfold pk_pushout. rewrite (HQ _ (proj2 C)), X, T, skipn_length. reflexivity.
      + destruct (compact (mk_mpush sep0 [] (map t_rec (t :: l)))) as [[b m]|] eqn:Cm; [|discriminate]. injection H as <- <- <-.
        rewrite app_length. simpl length. rewrite (proj2 (Nat.leb_gt _ _)) by lia. rewrite (proj2 (Nat.ltb_lt _ _) Lt), F1, F2.
        split; [reflexivity|]. split; [lia|]. split; [|lia]. intros _. split; [exact B1|]. intros I C Ho. pose proof (Early Lt I C Ho) as X.
        unfold pk_pushout. rewrite (HQ _ (proj2 C)), X, T, Cm, skipn_length. reflexivity.
    - apply Nat.ltb_ge in Lt. destruct (A Lt) as (-> & ->).
      assert (F0 : firstn (S k) ms1 = ms1) by (apply firstn_all2; lia). rewrite F0.
      destruct (pk_top p1) as [|t l] eqn:T.
      + injection H as <- <- <-. exists p1. rewrite (proj2 (Nat.leb_le _ _) Lt), F0. split; [reflexivity|]. split; [auto|]. split; lia.
      + destruct (compact (mk_mpush sep0 [] (map t_rec (t :: l)))) as [[b m]|] eqn:Cm; [|discriminate]. injection H as <- <- <-.
        rewrite app_length. simpl (length [m]).
        destruct (Nat.eq_dec k (length ms1)) as [->|Ne].
        * rewrite Nat.sub_diag. rewrite (proj2 (Nat.leb_gt (length ms1 + 1) (length ms1))) by lia. rewrite Nat.ltb_irrefl.
          rewrite firstn_all2 by (rewrite app_length; simpl; lia).
          eexists. split; [reflexivity|]. split; [lia|]. split; [lia|]. intros _ _. split; [reflexivity|]. split; [lia|reflexivity].
        * destruct (k - length ms1)%nat as [|j] eqn:D; [lia|]. rewrite (proj2 (Nat.leb_le (length ms1 + 1) k)) by lia.
          rewrite firstn_all2 by (rewrite app_length; simpl; lia).
          eexists. split; [reflexivity|]. split; [auto|]. split; lia.
  Qed.

  (** Records that fit: pushout() needs no batch behind the loop. *)
  Lemma charge_le : forall lg seen cur, fst (charge lg seen cur) <= cur + fold_right (fun n s => zlen n + 4 + s) 0 lg.
  Proof.
    induction lg as [|n lg IH]; intros seen cur; simpl; [lia|]. destruct (existsb (name_eqb n) seen).
    - pose proof (IH seen cur). unfold zlen in *. lia.
    - pose proof (IH (n :: seen) (cur + (zlen n + 4))). lia.
  Qed.

  Lemma cost_top : forall o t, opts_ok o -> top_ok esc o t ->
    t_size t + fold_right (fun n s => zlen n + 4 + s) 0 (t_legend t) = cost esc o (t_rec t).
  Proof.
    intros o t Ho (E & L). unfold cost. rewrite E. f_equal. destruct (po_ncompact o) eqn:N; [|now rewrite L].
    destruct L as (n & L). destruct (compact_alone (po_sep o) (t_rec t) (Ho N)) as (n' & lg & C & ->). cbn [mp_legend].
    rewrite C in L. injection L as _ ->. reflexivity.
  Qed.

  Lemma multi_pop_incl : forall o h p b p', opts_ok o -> SInv o h p -> pk_multi_pop esc p = Some (b, p') ->
    incl (stored p') (stored p).
  Proof.
    intros o h p b p' Ho I H. unfold pk_multi_pop in H. destruct (pk_top p) as [|t0 l0] eqn:E; [injection H as <- <-; apply incl_refl|].
    rewrite <- E in H. destruct (po_json (pk_opt p) <? _); [injection H as <- <-; apply incl_refl|].
    match type of H with context [pop_loop esc ?f ?a ?b ?c ?d ?e p] =>
      destruct (pop_loop_s esc o h Ho f a b c d e p I) as (res & p1 & F & I1 & (e' & -> & P)) end; [lia|].
    rewrite F in H. simpl app in H.
    assert (K : incl (stored p1) (stored p)).
    { intros x Hx. apply (Permutation_in x (Permutation_sym P)). apply in_or_app. auto. }
    destruct e' as [|x e']; [injection H as <- <-; exact K|]. destruct (po_ncompact (pk_opt p)).
    - destruct (compact _) as [[c m]|]; [|discriminate]. injection H as <- <-. exact K.
    - injection H as <- <-. exact K.
  Qed.

  Lemma multi_pop_fits : forall o h p p', opts_ok o -> PInv esc o h p -> Forall (fits esc o) (stored p) ->
    pk_multi_pop esc p = Some (None, p') -> stored p' = [].
  Proof.
    intros o h p p' Ho I F H. unfold pk_multi_pop in H. destruct (pk_top p) as [|t0 l0] eqn:E.
    { injection H as <-. unfold stored. rewrite E. reflexivity. }
    exfalso. rewrite <- E in H. assert (EO : pk_opt p = o) by apply I. rewrite EO in H.
    assert (F0 : fits esc o (t_rec t0)) by (rewrite Forall_forall in F; apply F; unfold stored; rewrite E; left; reflexivity).
    destruct F0 as (Lim & F0). change (zlen (mpush_text esc (po_jcompact o) mpush0)) with (mpush_size esc (po_jcompact o) mpush0) in *.
    rewrite (proj2 (Z.ltb_ge _ _)) in H by lia. cbn [pop_loop] in H. rewrite (proj2 (Z.leb_gt _ _)) in H by lia.
    pose proof (pop_ok esc o h p (po_json o - mpush_size esc (po_jcompact o) mpush0) I) as Q.
    assert (T0 : In t0 (pk_top p)) by (rewrite E; left; reflexivity).
    assert (Nn : forall lg : list name, 0 <= fold_right (fun n s => zlen n + 4 + s) 0 lg).
    { induction lg as [|n lg IH]; simpl; unfold zlen in *; lia. }
    destruct (pk_pop _ p) as [[t p1]|].
    2:{ rewrite Forall_forall in Q. specialize (Q t0 T0). destruct I as (_ & _ & _ & I). rewrite Forall_forall in I.
        pose proof (cost_top o t0 Ho (I t0 T0)). pose proof (Nn (t_legend t0)). lia. }
    destruct Q as (I1 & Tt & P & _ & _ & Ln).
    assert (Ft : fits esc o (t_rec t)).
    { rewrite Forall_forall in F. apply F. unfold stored. apply in_map. apply (Permutation_in t (Permutation_sym P)). left. reflexivity. }
    destruct Ft as (_ & Ft). change (zlen (mpush_text esc (po_jcompact o) mpush0)) with (mpush_size esc (po_jcompact o) mpush0) in *.
    pose proof (charge_le (t_legend t) [] (t_size t)) as Ch. destruct (charge (t_legend t) [] (t_size t)) as [cur seen]. simpl in Ch.
    pose proof (cost_top o t Ho Tt). rewrite (proj2 (Z.leb_le _ _)) in H by lia. cbv zeta in H.
    rewrite EO in H.
    match type of H with match (if ?b then _ else _) with _ => _ end = _ => destruct b end; [simpl in H; destruct (po_ncompact o); [|discriminate]; destruct (compact _) as [[? ?]|]; discriminate|].
    match type of H with match (if ?b then _ else _) with _ => _ end = _ => destruct b end; [simpl in H; destruct (po_ncompact o); [|discriminate]; destruct (compact _) as [[? ?]|]; discriminate|].
    match type of H with match pop_loop esc ?f ?a ?b ?c ?d ?e p1 with _ => _ end = _ =>
      destruct (pop_loop_ok esc o h Ho f a b c d e p1 I1) as (res & p2 & X & _ & (e' & Y & _)) end; [lia|].
    rewrite X in H. subst res. simpl in H. destruct (po_ncompact o); [|discriminate]. destruct (compact _) as [[? ?]|]; discriminate.
  Qed.

  Lemma loop_x_fits : forall o h, opts_ok o -> forall fuel k p ms b k' p', PInv esc o h p -> Forall (fits esc o) (stored p) ->
    pushout_loop_x esc fuel k p = Some (ms, b, k', p') -> PInv esc o h p' /\ incl (stored p') (stored p) /\ (b = false -> stored p' = []).
  Proof.
    intros o h Ho. induction fuel as [|fuel IH]; intros k p ms b k' p' I F H; [discriminate|]. cbn [pushout_loop_x] in H.
    destruct (multi_pop_inv esc o h p Ho I) as (x & p1 & E & I1 & _). rewrite E in H.
    pose proof (multi_pop_incl o h p x p1 Ho (PInv_SInv esc o h p I) E) as Inc. destruct x as [m|].
    - assert (F1 : Forall (fits esc o) (stored p1)) by (rewrite Forall_forall in *; auto).
      assert (K : match pushout_loop_x esc fuel (turn k) p1 with None => None
           | Some (ms, b, k, p2) => Some (m :: ms, b, k, p2) end = Some (ms, b, k', p') ->
           PInv esc o h p' /\ incl (stored p') (stored p) /\ (b = false -> stored p' = [])).
      { intros K. destruct (pushout_loop_x esc fuel (turn k) p1) as [[[[ms' b'] k''] p2]|] eqn:G; [|discriminate].
        injection K as _ <- _ <-. destruct (IH _ _ _ _ _ _ I1 F1 G) as (A & B & C). split; [exact A|]. split; [|exact C].
        eapply incl_tran; eassumption. }
      destruct k as [[|j]|]; [|exact (K H)|exact (K H)]. injection H as _ <- _ <-. split; [exact I1|]. split; [exact Inc|discriminate].
    - injection H as _ <- _ <-. split; [exact I1|]. split; [exact Inc|]. intros _. exact (multi_pop_fits o h p p1 Ho I F E).
  Qed.

  Lemma do_x_fits : forall o h, opts_ok o -> forall c p r p', PInv esc o h p -> Forall (fits esc o) (y_pushed c ++ stored p) ->
    pk_do_x esc left c p = Some (r, p') ->
    PInv esc o h p' /\ Forall (fits esc o) (stored p') /\ forall bs, r <> YOut OThrewTail bs.
  Proof.
    intros o h Ho c p r p' I F H. apply Forall_app in F. destruct F as (Fc & F). destruct c as [x|l|m| |k]; simpl in H, Fc.
    - destruct (push_ok esc o h p x Ho I) as (p1 & t & E & I1 & T & _ & P). rewrite E in H. injection H as <- <-.
      split; [exact I1|]. split; [|discriminate]. unfold stored. eapply Permutation_Forall; [symmetry; apply (Permutation_map t_rec P)|].
      simpl. rewrite T. constructor; [now inversion Fc|exact F].
    - destruct (pushes_ok esc o h l p Ho I) as (p1 & E & I1 & P). rewrite E in H. injection H as <- <-.
      split; [exact I1|]. split; [|discriminate]. eapply Permutation_Forall; [symmetry; exact P|]. apply Forall_app. auto.
    - pose proof (pop_ok esc o h p m I) as Q. destruct (pk_pop m p) as [[t p1]|]; injection H as <- <-.
      + destruct Q as (I1 & _ & P & _). split; [exact I1|]. split; [|discriminate].
        pose proof (Permutation_Forall (Permutation_map t_rec P) F) as F1. simpl in F1. now inversion F1.
      + split; [exact I|]. split; [exact F|discriminate].
    - destruct (multi_pop_inv esc o h p Ho I) as (b & p1 & E & I1 & _). rewrite E in H. injection H as <- <-.
      split; [exact I1|]. split; [|discriminate].
      pose proof (multi_pop_incl o h p b p1 Ho (PInv_SInv esc o h p I) E). rewrite Forall_forall in *; auto.
    - destruct (pk_pushout_x esc left k p) as [[[q ms] p1]|] eqn:E; [|discriminate]. injection H as <- <-.
      unfold pk_pushout_x in E. destruct (pk_handler p).
      2:{ injection E as <- <- <-. split; [exact I|]. split; [exact F|discriminate]. }
      destruct (pushout_loop_x esc (S (length (pk_top p))) k p) as [[[[ms1 b] k1] p2]|] eqn:G; [|discriminate].
      destruct (loop_x_fits o h Ho _ _ _ _ _ _ _ I F G) as (I1 & Inc & Emp).
      destruct b; [injection E as <- <- <-; split; [exact I1|]; split; [rewrite Forall_forall in *; auto|discriminate]|].
      specialize (Emp eq_refl). unfold stored in Emp. apply map_eq_nil in Emp. rewrite Emp in E. injection E as <- <- <-.
      split; [exact I1|]. split; [rewrite Forall_forall in *; auto|discriminate].
  Qed.

  Lemma run_x_fits : forall o h, opts_ok o -> forall cs p rs p', PInv esc o h p ->
    Forall (fits esc o) (flat_map y_pushed cs ++ stored p) -> pk_run_x esc left p cs = Some (rs, p') -> no_tail rs.
  Proof.
    intros o h Ho. induction cs as [|c cs IH]; intros p rs p' I F H; simpl in H.
    - injection H as <- <-. intros bs [].
    - destruct (pk_do_x esc left c p) as [[r p1]|] eqn:E; [|discriminate].
      destruct (pk_run_x esc left p1 cs) as [[rs' p2]|] eqn:G; [|discriminate]. injection H as <- <-.
      cbn [flat_map] in F. rewrite !Forall_app in F. destruct F as ((F1 & F2) & F3).
      destruct (do_x_fits o h Ho c p r p1 I) as (I1 & F4 & T); [apply Forall_app; auto|exact E|].
      intros bs [Hb|Hb]; [exact (T bs Hb)|]. exact (IH p1 rs' p2 I1 (proj2 (Forall_app _ _ _) (conj F2 F4)) G bs Hb).
  Qed.

  Lemma no_copies : forall jp rs, no_tail rs -> flat_map (y_copies left jp) rs = [].
  Proof.
    intros jp. induction rs as [|r rs IH]; intros H; [reflexivity|]. simpl. rewrite IH; [|intros bs X; apply (H bs); right; exact X].
    rewrite app_nil_r. destruct r as [|x|b|[n| |] bs]; try reflexivity. destruct (H bs). left. reflexivity.
  Qed.
End Esc.
