(** Fuel, progress and pushout of the packer. *)
From Coq Require Import Ascii ZArith NArith List Bool Lia Permutation Sorted.
From Verif Require Import Base ModelTypes ModelRegistry ModelJson ModelPacker SpecPacker PackName PackerProofs PackerSize.
Import ListNotations.
Local Open Scope Z_scope.
Local Open Scope list_scope.

Lemma compact_loop_fuel : forall sep f f' rest lg out x, compact_loop f sep rest lg out = Some x -> (f <= f')%nat ->
  compact_loop f' sep rest lg out = Some x.
Proof.
  intros sep. induction f as [|f IH]; intros f' rest lg out x H L; [discriminate|]. destruct f' as [|f']; [lia|]. simpl in *.
  destruct (find_sub sep rest) as [pos|]; [|exact H]. destruct (findorcre (firstn pos rest) lg) as [k lg'].
  apply IH; [exact H|lia].
Qed.

(** An empty separator is found at once, forever. *)
Lemma compact_loop_diverges : forall f rest lg out, compact_loop f [] rest lg out = None.
Proof.
  induction f as [|f IH]; intros rest lg out; [reflexivity|]. simpl.
  replace (find_sub [] rest) with (Some 0%nat) by (destruct rest; reflexivity). simpl.
  destruct (findorcre [] lg) as [k lg']. apply IH.
Qed.

Lemma sorted_bounds : forall l, StronglySorted le_size l ->
  match l with
  | [] => True
  | a :: _ => Forall (fun t => t_size a <= t_size t) l /\
              exists z l', rev l = z :: l' /\ Forall (fun t => t_size t <= t_size z) l
  end.
Proof.
  intros [|a l] H; [exact I|]. split.
  - inversion H; subst. constructor; [lia|exact H3].
  - destruct (rev (a :: l)) as [|z l'] eqn:E.
    + apply (f_equal (@length _)) in E. rewrite rev_length in E. simpl in E. lia.
    + exists z, l'. split; [reflexivity|]. apply (f_equal (@rev _)) in E. rewrite rev_involutive in E. simpl in E.
      rewrite E in *. clear -H. apply Forall_app. split; [|constructor; [lia|constructor]].
      apply Forall_forall. intros x Hx. apply (sorted_split (length (rev l')) _ H x z).
      * rewrite firstn_app, firstn_all, Nat.sub_diag. simpl. now rewrite app_nil_r.
      * rewrite skipn_app, skipn_all, Nat.sub_diag. simpl. auto.
Qed.

Section Esc.
  Variable esc : name -> name.

  Lemma pop_loop_fuel : forall f f' jl pl dl seen res p x, pop_loop esc f jl pl dl seen res p = Some x -> (f <= f')%nat ->
    pop_loop esc f' jl pl dl seen res p = Some x.
  Proof.
    induction f as [|f IH]; intros f' jl pl dl seen res p x H L; [discriminate|]. destruct f' as [|f']; [lia|]. cbn [pop_loop] in *.
    destruct (jl <=? 0); [exact H|]. destruct (pk_pop jl p) as [[t p1]|]; [|exact H].
    destruct (charge (t_legend t) seen (t_size t)) as [cur seen']. destruct (cur <=? jl); [|exact H]. cbv zeta in *.
    match goal with |- (if ?b then _ else _) = _ => destruct b end; [exact H|].
    match goal with |- (if ?b then _ else _) = _ => destruct b end; [exact H|]. apply IH; [exact H|lia].
  Qed.
  Lemma pushout_loop_fuel : forall f f' p x, pushout_loop esc f p = Some x -> (f <= f')%nat -> pushout_loop esc f' p = Some x.
  Proof.
    induction f as [|f IH]; intros f' p x H L; [discriminate|]. destruct f' as [|f']; [lia|]. cbn [pushout_loop] in *.
    destruct (pk_multi_pop esc p) as [[[m|] p1]|]; [|exact H|discriminate].
    destruct (pushout_loop esc f p1) as [[ms p2]|] eqn:E; [|discriminate].
    rewrite (IH f' p1 _ E) by lia. exact H.
  Qed.

  (** C42 *)
  Lemma best_fit : forall o h p m, PInv esc o h p ->
    match pk_pop m p with
    | None => Forall (fun r => m < accounted esc o r) (stored p)
    | Some (t, p') => t_size t = accounted esc o (t_rec t) /\ t_size t <= m /\
        Permutation (stored p) (t_rec t :: stored p') /\
        Forall (fun r => accounted esc o r <= m -> accounted esc o r <= t_size t) (stored p)
    end.
  Proof.
    intros o h p m I. pose proof (pop_ok esc o h p m I) as Q. destruct I as (_ & _ & _ & F).
    rewrite Forall_forall in F. destruct (pk_pop m p) as [[t p']|].
    - destruct Q as (_ & (T & _) & P & L & B & _). split; [exact T|]. split; [exact L|].
      split; [unfold stored; rewrite (Permutation_map t_rec P); reflexivity|].
      unfold stored. rewrite Forall_map. rewrite Forall_forall in *. intros u Hu. rewrite <- (proj1 (F u Hu)). auto.
    - unfold stored. rewrite Forall_map. rewrite Forall_forall in *. intros u Hu. rewrite <- (proj1 (F u Hu)). auto.
  Qed.
  Lemma extremes : forall o h p, PInv esc o h p ->
    (stored p = [] -> pk_min_val p = 0 /\ pk_max_val p = 0) /\
    (stored p <> [] -> In (pk_min_val p) (map (accounted esc o) (stored p)) /\ In (pk_max_val p) (map (accounted esc o) (stored p)) /\
       Forall (fun r => pk_min_val p <= accounted esc o r <= pk_max_val p) (stored p)).
  Proof.
    intros o h p (_ & _ & S & F). unfold stored, pk_min_val, pk_max_val. split.
    - intros E. apply map_eq_nil in E. rewrite E. auto.
    - intros E. pose proof (sorted_bounds _ S) as B. rewrite map_map, Forall_map.
      assert (M : map (fun x => accounted esc o (t_rec x)) (pk_top p) = map t_size (pk_top p)).
      { apply map_ext_in. intros u Hu. rewrite Forall_forall in F. symmetry. apply F, Hu. }
      rewrite M. destruct (pk_top p) as [|a l]; [destruct E; reflexivity|]. destruct B as (B1 & z & l' & R & B2). rewrite R.
      split; [simpl; auto|]. split.
      + apply in_map. apply in_rev. rewrite R. simpl; auto.
      + rewrite Forall_forall in *. intros u Hu. rewrite <- (proj1 (F u Hu)). auto.
  Qed.

  (** Progress: without name compaction multi_pop gives nothing only if no record fits. *)
  Lemma progress : forall o h p p', opts_ok o -> PInv esc o h p -> po_ncompact o = false ->
    pk_multi_pop esc p = Some (None, p') ->
    p' = p /\ Forall (fun r => po_json o < mpush_size esc (po_jcompact o) mpush0 + accounted esc o r) (stored p).
  Proof.
    intros o h p p' Ho I N H. unfold pk_multi_pop in H. destruct (pk_top p) as [|t0 l0] eqn:E.
    { injection H as <-. split; [reflexivity|]. unfold stored. rewrite E. constructor. }
    rewrite <- E in H. clear E t0 l0.
    assert (EO : pk_opt p = o) by apply I. rewrite EO in H.
    assert (Pos : Forall (fun r => 0 < accounted esc o r) (stored p)).
    { apply Forall_forall. intros r _. unfold accounted. rewrite N. rewrite Z.add_0_r. unfold push_text.
      destruct (po_jcompact o); unfold jpush, jpush_compact; cbn [jprint]; rewrite zlen_cons;
        match goal with |- context [zlen ?l] => pose proof (zlen_nonneg _ l) end; lia. }
    destruct (po_json o <? mpush_size esc (po_jcompact o) mpush0) eqn:Z0.
    { injection H as <-. split; [reflexivity|]. apply Z.ltb_lt in Z0. eapply Forall_impl; [|exact Pos]. simpl. intros; lia. }
    apply Z.ltb_ge in Z0. cbn [pop_loop] in H.
    destruct (po_json o - mpush_size esc (po_jcompact o) mpush0 <=? 0) eqn:Z1.
    { injection H as <-. split; [reflexivity|]. apply Z.leb_le in Z1. eapply Forall_impl; [|exact Pos]. simpl. intros; lia. }
    apply Z.leb_gt in Z1. pose proof (best_fit o h p (po_json o - mpush_size esc (po_jcompact o) mpush0) I) as B.
    pose proof (pop_ok esc o h p (po_json o - mpush_size esc (po_jcompact o) mpush0) I) as Q.
    destruct (pk_pop _ p) as [[t p1]|].
    - exfalso. destruct Q as (I1 & (_ & Tl) & _ & Lt & _ & Ln). rewrite N in Tl. rewrite Tl in H. cbn [charge] in H.
      replace (t_size t <=? po_json o - mpush_size esc (po_jcompact o) mpush0) with true in H by (symmetry; apply Z.leb_le; exact Lt).
      cbv zeta in H. rewrite EO in H.
      assert (S1 : forall q, match ([] ++ [t_rec t] : list push) with [] => Some (None, q)
         | _ :: _ => Some (Some (mk_mpush (po_sep o) [] ([] ++ [t_rec t])), q) end = Some (None, p') -> False) by (intros q; simpl; discriminate).
      rewrite N in H.
      match goal with H : match (if ?b then _ else _) with _ => _ end = _ |- _ => destruct b end; [simpl in H; discriminate|].
      match goal with H : match (if ?b then _ else _) with _ => _ end = _ |- _ => destruct b end; [simpl in H; discriminate|].
      match type of H with match pop_loop esc ?f ?a ?b ?c ?d ?e p1 with _ => _ end = _ =>
        destruct (pop_loop_ok esc o h Ho f a b c d e p1 I1) as (res & p2 & X & _ & (e' & Y & _)) end; [lia|].
      rewrite X in H. subst res. simpl in H. discriminate.
    - injection H as <-. split; [reflexivity|]. eapply Forall_impl; [|exact B]. simpl. intros; lia.
  Qed.

  (** pushout: all batches but a last one come from multi_pop *)
  Lemma pushout_loop_batches : forall o h (Q : mpush -> Prop), opts_ok o ->
    (forall p m p', PInv esc o h p -> pk_multi_pop esc p = Some (Some m, p') -> Q m) ->
    forall fuel p ms p', PInv esc o h p -> pushout_loop esc fuel p = Some (ms, p') ->
    Forall Q ms /\ PInv esc o h p' /\ exists p0, PInv esc o h p0 /\ pk_multi_pop esc p0 = Some (None, p').
  Proof.
    intros o h Q Ho HQ. induction fuel as [|fuel IH]; intros p ms p' I H; [discriminate|]. cbn [pushout_loop] in H.
    destruct (multi_pop_inv esc o h p Ho I) as (b & p1 & E & I1 & _). rewrite E in H. destruct b as [m|].
    - destruct (pushout_loop esc fuel p1) as [[ms' p2]|] eqn:F; [|discriminate]. injection H as <- <-.
      destruct (IH _ _ _ I1 F) as (A & B & C). split; [constructor; [exact (HQ p m p1 I E)|exact A]|]. split; assumption.
    - injection H as <- <-. split; [constructor|]. split; [exact I1|]. exists p. auto.
  Qed.

  Lemma pushout_batches : forall o (Q : mpush -> Prop), opts_ok o ->
    (forall p m p', PInv esc o true p -> pk_multi_pop esc p = Some (Some m, p') -> Q m) ->
    forall p n ms p', PInv esc o true p -> pk_pushout esc p = Some (n, ms, p') ->
    exists bs, Forall Q bs /\ length bs = n /\
      (ms = bs \/ exists left p0, ms = bs ++ [left] /\ PInv esc o true p0 /\ stored p0 <> [] /\
         (exists q, PInv esc o true q /\ pk_multi_pop esc q = Some (None, p0)) /\
         compact (mk_mpush sep0 [] (stored p0)) = Some (true, left)).
  Proof.
    intros o Q Ho HQ p n ms p' I H. unfold pk_pushout in H. assert (EH : pk_handler p = true) by apply I. rewrite EH in H.
    destruct (pushout_loop esc (S (length (pk_top p))) p) as [[bs p1]|] eqn:E; [|discriminate].
    destruct (pushout_loop_batches o true Q Ho HQ _ _ _ _ I E) as (A & I1 & p0 & I0 & E0).
    destruct (pk_top p1) as [|t l] eqn:T.
    - injection H as <- <- <-. exists bs. auto.
    - destruct (compact (mk_mpush sep0 [] (map t_rec (t :: l)))) as [[b m]|] eqn:C; [|discriminate]. injection H as <- <- <-.
      exists bs. split; [exact A|]. split; [reflexivity|]. right. exists m, p1. split; [reflexivity|]. split; [exact I1|].
      unfold stored. rewrite T. split; [discriminate|]. split; [eauto|].
      rewrite C. unfold compact in C. cbn [mp_sep] in C. change sep0 with (["~"; "~"]%char) in C. cbv iota in C.
      destruct (compact_data _ _ _) as [[x y]|]; [|discriminate]. injection C as <- _. reflexivity.
  Qed.
End Esc.
