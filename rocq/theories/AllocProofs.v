(** Invariant of a reducer whose allocations may fail. *)
From Coq Require Import ZArith List Bool Permutation Lia Arith.
From Verif Require Import Base SortFacts ModelTypes ModelAvg AvgProofs ModelReducer SpecReducer ListFacts LoopProofs ReducerProofs
  ModelAlloc SpecAlloc.
Import ListNotations.
Local Open Scope Z_scope.

(** Rows: all full except the last, which may be empty. *)
Definition fshape (limit levels : nat) (d : list (list Z)) : Prop :=
  d = [] \/
  exists init lst, d = init ++ [lst] /\ Forall (fun v => length v = limit) init /\
    (length lst <= limit)%nat /\ (1 <= limit)%nat /\ (length d <= levels)%nat.

Record FI (o : ropts) (vs es : list Z) (t b : Z) (seen : bool) (r : reducer) : Prop := mkFI {
  fi_opt : r_opt r = ctor_opt o;
  fi_shape : fshape (o_limit o) (o_levels o) (r_data r);
  fi_min : r_min r = fold_right Z.min i64_max es;
  fi_max : r_max r = fold_right Z.max i64_min es;
  fi_avg : (r_avg r, r_avgc r) = avg_of vs;
  fi_sub : submultiset (concat (r_data r)) vs;
  fi_total : r_total r = u64 t;
  fi_bal : u64 (r_lossy r + stored r) = u64 b;
  fi_lossy : 0 <= r_lossy r < two64;
  fi_seen : r_empty r = negb seen }.

Lemma upd_last_fshape f limit levels d : (forall v, length (f v) = length v) ->
  fshape limit levels d -> fshape limit levels (upd_last f d).
Proof.
  intros Hf [->|(init & lst & -> & Hi & Hl & H1 & Hn)]; [now left|].
  right. rewrite upd_last_app. exists init, (f lst). rewrite Hf. repeat split; auto; try lia.
  rewrite app_length in *. simpl in *. auto.
Qed.
Lemma fshape_length limit levels d : fshape limit levels d ->
  length (concat d) = ((length d - 1) * limit + length (back d))%nat.
Proof.
  intros [->|(init & lst & -> & Hi & _)]; [reflexivity|].
  rewrite concat_snoc, app_length, (concat_length_const _ limit) by auto.
  rewrite back_app, app_length. simpl. f_equal. f_equal. lia.
Qed.
Lemma fshape_cases limit levels d : fshape limit levels d ->
  d = [] \/ (exists v, d = [v] /\ (length v <= limit)%nat /\ (1 <= limit)%nat /\ (1 <= levels)%nat) \/
  (exists v0 A lst, d = v0 :: A ++ [lst] /\ length v0 = limit /\ Forall (fun v => length v = limit) A /\
     (length lst <= limit)%nat /\ (1 <= limit)%nat /\ (length d <= levels)%nat).
Proof.
  intros [->|(init & lst & -> & Hi & Hl & H1 & Hn)]; [now left|right].
  destruct init as [|v0 A]; simpl in *.
  - left. exists lst. split; [reflexivity|lia].
  - right. exists v0, A, lst. inversion Hi; subst. repeat split; auto.
Qed.

Lemma fmin_snoc es v : Z.min (fold_right Z.min i64_max es) v = fold_right Z.min i64_max (es ++ [v]).
Proof.
  rewrite fold_min_app. simpl. assert (fold_right Z.min i64_max es <= i64_max) by (induction es; simpl; lia). lia.
Qed.
Lemma fmax_snoc es v : Z.max (fold_right Z.max i64_min es) v = fold_right Z.max i64_min (es ++ [v]).
Proof.
  rewrite fold_max_app. simpl. assert (i64_min <= fold_right Z.max i64_min es) by (induction es; simpl; lia). lia.
Qed.
Lemma avg_snoc vs v a c : (a, c) = avg_of vs -> (avg_step a (u64 (c + 1)) v, u64 (c + 1)) = avg_of (vs ++ [v]).
Proof. intros H. rewrite avg_of_snoc, <- H. reflexivity. Qed.

(** The row full: the new row, before and after it is pushed. *)
Section NewRow.
  Variables (o : ropts) (r : reducer).
  Let dempty := match r_data r with [] => true | _ => false end.
  Let d1 := if rmode_eqb (r_cur r) Sorting && negb dempty then upd_last isort (r_data r) else r_data r.
  Hypothesis HS : fshape (o_limit o) (o_levels o) (r_data r).
  Hypothesis HE : dempty || (length (back (r_data r)) =? o_limit o)%nat = true.
  Hypothesis HN : (length (r_data r) =? o_levels o)%nat || (o_limit o =? 0)%nat = false.
  Lemma d1_perm : Permutation (concat d1) (concat (r_data r)).
  Proof. unfold d1. destruct (_ && _); [apply upd_last_isort_perm|reflexivity]. Qed.
  Lemma d1_shape : fshape (o_limit o) (o_levels o) d1.
  Proof. unfold d1. destruct (_ && _); auto. apply upd_last_fshape; auto using isort_length. Qed.
  Lemma d1_full : Forall (fun v => length v = o_limit o) d1 /\ (length d1 < o_levels o)%nat /\ (1 <= o_limit o)%nat.
  Proof.
    apply orb_false_iff in HN as [E2 E3]. apply Nat.eqb_neq in E2, E3.
    assert (L1 : length d1 = length (r_data r)).
    { unfold d1. destruct (_ && _); auto. apply upd_last_length. }
    assert (B1 : length (back d1) = length (back (r_data r))).
    { unfold d1. destruct (_ && _); auto. destruct (list_snoc (r_data r)) as [->|(a & x & ->)]; auto.
      rewrite upd_last_app, !back_app. apply isort_length. }
    destruct d1_shape as [S1|(init & lst & Ed & Hi & Hl & H1 & Hn)].
    - rewrite S1 in *. simpl in *. split; [constructor|]. lia.
    - assert (length d1 < o_levels o)%nat by lia. split; [|split; auto]. rewrite Ed. apply Forall_app; split; auto. constructor; auto.
      rewrite Ed, back_app in B1. unfold dempty in HE. destruct (r_data r) as [|x d] eqn:Er.
      + rewrite Ed, app_length in L1. simpl in L1. lia.
      + try rewrite orb_false_l in HE. apply Nat.eqb_eq in HE. lia.
  Qed.
  Lemma d1_snoc x : (length x <= o_limit o)%nat -> fshape (o_limit o) (o_levels o) (d1 ++ [x]).
  Proof.
    intros Hx. destruct d1_full as (F & L & H1). right. exists d1, x. repeat split; auto. rewrite app_length. simpl. lia.
  Qed.
End NewRow.

Lemma FI_add1 o vs es t b s r v : FI o vs es t b s r -> FI o (vs ++ [v]) (es ++ [v]) t (b + 1) s (r_add1 v r).
Proof.
  intros I. assert (B' : u64 (r_lossy (r_add1 v r) + stored (r_add1 v r)) = u64 (b + 1)).
  { rewrite add1_bal, <- u64_add_l, (fi_bal _ _ _ _ _ _ _ I), u64_add_l. reflexivity. }
  assert (T' := add1_total v r). assert (E' := add1_empty v r).
  destruct I as [Io Is Imn Imx Ia Isub It Ib Il Ie].
  assert (D : r_opt (r_add1 v r) = r_opt r /\ r_min (r_add1 v r) = Z.min (r_min r) v /\ r_max (r_add1 v r) = Z.max (r_max r) v /\
              r_avg (r_add1 v r) = avg_step (r_avg r) (u64 (r_avgc r + 1)) v /\ r_avgc (r_add1 v r) = u64 (r_avgc r + 1)).
  { unfold r_add1. destruct (_ || _); [destruct (_ || _)|]; simpl; auto 10. }
  destruct D as (D1 & D2 & D3 & D4 & D5).
  constructor; try congruence.
  - clear B' T' E' D1 D2 D3 D4 D5. unfold r_add1. rewrite Io, ctor_opt_limit, ctor_opt_levels.
    destruct (match r_data r with [] => true | _ => false end || (length (back (r_data r)) =? o_limit o)%nat) eqn:E1.
    + destruct ((length (r_data r) =? o_levels o)%nat || (o_limit o =? 0)%nat) eqn:E2; simpl; auto.
      apply d1_snoc; auto. simpl. apply orb_false_iff in E2 as [_ E2]. apply Nat.eqb_neq in E2. lia.
    + simpl. apply orb_false_iff in E1 as [E0 E1]. apply Nat.eqb_neq in E1.
      destruct Is as [Hd|(init & lst & Ed & Hi & Hl & H1 & Hn)]; [rewrite Hd in E0; discriminate|].
      rewrite Ed in *. rewrite back_app in E1. rewrite upd_last_app.
      right. exists init, (lst ++ [v]). rewrite !app_length in *. simpl in *. repeat split; auto; lia.
  - rewrite D2, Imn. apply fmin_snoc.
  - rewrite D3, Imx. apply fmax_snoc.
  - rewrite D4, D5. now apply avg_snoc.
  - clear B' T' E' D1 D2 D3 D4 D5. unfold r_add1. rewrite Io, ctor_opt_limit, ctor_opt_levels.
    destruct (match r_data r with [] => true | _ => false end || (length (back (r_data r)) =? o_limit o)%nat) eqn:E1.
    + destruct ((length (r_data r) =? o_levels o)%nat || (o_limit o =? 0)%nat) eqn:E2; cbn [r_data].
      * now apply submultiset_app_r.
      * rewrite concat_snoc. destruct Isub as [q Q]. exists q. rewrite <- Q. rewrite d1_perm, <- app_assoc.
        rewrite (Permutation_app_comm [v]). now rewrite app_assoc.
    + cbn [r_data]. apply orb_false_iff in E1 as [E0 E1].
      destruct Is as [Hd|(init & lst & Ed & _)]; [rewrite Hd in E0; discriminate|].
      rewrite Ed in *. rewrite upd_last_app, concat_snoc. rewrite concat_snoc in Isub. destruct Isub as [q Q]. exists q.
      rewrite <- Q. rewrite <- !app_assoc. do 2 apply Permutation_app_head. apply Permutation_app_comm.
  - unfold r_add1. destruct (_ || _); [destruct (_ || _)|]; simpl; auto using u64_range.
Qed.

Lemma FI_add1_fail o vs es t b s r k v r1 : FI o vs es t b s r -> r_add1_fail k v r = Some r1 ->
  FI o (vs ++ [v]) (es ++ [v]) t b s r1.
Proof.
  intros [Io Is Imn Imx Ia Isub It Ib Il Ie] E. unfold r_add1_fail in E. rewrite Io, ctor_opt_limit, ctor_opt_levels in E.
  assert (K : forall d, fshape (o_limit o) (o_levels o) d -> Permutation (concat d) (concat (r_data r)) ->
    FI o (vs ++ [v]) (es ++ [v]) t b s
       (mk_reducer (ctor_opt o) (r_cur r) (r_empty r) (Z.min (r_min r) v) (Z.max (r_max r) v) (r_lossy r) (r_total r)
                   (u64 (r_avgc r + 1)) (avg_step (r_avg r) (u64 (r_avgc r + 1)) v) d)).
  { intros d Hd P. constructor; simpl; auto.
    - rewrite Imn. apply fmin_snoc.
    - rewrite Imx. apply fmax_snoc.
    - now apply avg_snoc.
    - apply submultiset_app_r. eapply submultiset_perm_l; [symmetry; exact P|auto].
    - unfold stored in *. simpl. now rewrite (Permutation_length P). }
  destruct (match r_data r with [] => true | _ => false end || (length (back (r_data r)) =? o_limit o)%nat) eqn:E1.
  - destruct ((length (r_data r) =? o_levels o)%nat || (o_limit o =? 0)%nat) eqn:E2; [discriminate|].
    destruct k; [| |discriminate]; injection E as <-.
    + apply K; [now apply d1_shape|apply d1_perm].
    + apply K; [apply d1_snoc; auto; simpl; lia|]. rewrite concat_snoc, app_nil_r. apply d1_perm.
  - destruct k; try discriminate. injection E as <-. apply K; auto.
Qed.

Lemma FI_add_all o vs es t b s us : forall r, FI o vs es t b s r ->
  FI o (vs ++ us) (es ++ us) t (b + Z.of_nat (length us)) s (r_add_all us r).
Proof.
  revert vs es b. induction us as [|u us IH]; intros vs es b r I.
  - simpl. now rewrite !app_nil_r, Z.add_0_r.
  - apply (FI_add1 _ _ _ _ _ _ _ u), IH in I. rewrite <- !app_assoc in I.
    replace (b + Z.of_nat (length (u :: us))) with (b + 1 + Z.of_nat (length us)) by (cbn [length]; lia). exact I.
Qed.

Lemma FI_account o vs es t b s r dt dl : FI o vs es t b s r -> FI o vs es (t + dt) (b + dl) true (r_account dt dl r).
Proof.
  intros [Io Is Imn Imx Ia Isub It Ib Il Ie]. constructor; simpl; auto using u64_range.
  - now rewrite It, u64_add_l.
  - unfold stored in *. simpl. rewrite u64_add_l.
    replace (r_lossy r + dl + Z.of_nat (length (concat (r_data r)))) with ((r_lossy r + Z.of_nat (length (concat (r_data r)))) + dl) by lia.
    now rewrite <- u64_add_l, Ib, u64_add_l.
Qed.

Lemma FI_minmax o vs es t b s r v : FI o vs es t b s r -> FI o vs (es ++ [v]) t b s (r_minmax v r).
Proof.
  intros [Io Is Imn Imx Ia Isub It Ib Il Ie]. constructor; simpl; auto.
  - rewrite Imn. apply fmin_snoc.
  - rewrite Imx. apply fmax_snoc.
Qed.

Lemma FI_clear o vs es t b s r : FI o vs es t b s r -> FI o [] [] 0 0 false (r_clear r).
Proof.
  intros []. constructor; simpl; auto; try (unfold two64; lia).
  - now left.
  - exists []. reflexivity.
Qed.
Lemma FI_new o : FI o [] [] 0 0 false (reducer_new o).
Proof.
  constructor; simpl; auto; try (unfold two64; lia).
  - now left.
  - exists []. reflexivity.
Qed.

Lemma FI_arr o vs es t b s r us c : FI o vs es t b s r -> 0 <= c ->
  FI o (vs ++ us) (es ++ us) (t + c) (b + c + Z.max 0 (Z.of_nat (length us) - c)) true
     (r_account c (if Z.of_nat (length us) <? c then c - Z.of_nat (length us) else 0) (r_add_all us r)).
Proof.
  intros I Hc. apply (FI_add_all _ _ _ _ _ _ us) in I.
  apply (FI_account _ _ _ _ _ _ _ c (if Z.of_nat (length us) <? c then c - Z.of_nat (length us) else 0)) in I.
  replace (b + c + Z.max 0 (Z.of_nat (length us) - c)) with
    (b + Z.of_nat (length us) + (if Z.of_nat (length us) <? c then c - Z.of_nat (length us) else 0)); auto.
  destruct (Z.ltb_spec (Z.of_nat (length us)) c); lia.
Qed.

(** The invariant in terms of the account. *)
Definition AInv (o : ropts) (a : account) (r : reducer) : Prop :=
  FI o (a_tried a) (a_extremes a) (a_declared a) (a_declared a + a_extra a) (a_seen a) r.

Lemma add_plain ne o a r op r' : AInv o a r -> is_add op = true -> is_u64 (op_declared op) -> r_step ne r op = Ok r' ->
  AInv o (mk_account (a_tried a ++ op_values op) (a_extremes a ++ op_extremes op) (a_declared a + op_declared op)
                     (a_extra a + op_excess op) true) r'.
Proof.
  intros I A U E. unfold AInv. cbn [a_tried a_extremes a_declared a_extra a_seen].
  replace (a_declared a + op_declared op + (a_extra a + op_excess op)) with
    (a_declared a + a_extra a + op_declared op + Z.max 0 (Z.of_nat (length (op_values op)) - op_declared op)) by (unfold op_excess; lia).
  assert (U0 : 0 <= op_declared op) by (unfold is_u64 in U; lia).
  assert (J := FI_arr _ _ _ _ _ _ _ (op_values op) (op_declared op) I U0).
  destruct op; try discriminate; simpl in E; injection E as <-; cbn [op_values op_declared] in *; unfold op_extremes; cbn [op_values].
  - exact J.
  - rewrite app_nil_r. exact J.
  - rewrite app_nil_r. exact J.
  - rewrite app_nil_r. rewrite Z.ltb_irrefl in J. exact J.
  - unfold r_add_red, r_add_arr. cbn [filter].
    destruct (negb (ri_min (rd_info d) =? 0)); destruct (negb (ri_max (rd_info d) =? 0)).
    + change [ri_min (rd_info d); ri_max (rd_info d)] with ([ri_min (rd_info d)] ++ [ri_max (rd_info d)]).
      rewrite !app_assoc. apply FI_minmax, FI_minmax. exact J.
    + rewrite !app_assoc. apply FI_minmax. exact J.
    + rewrite !app_assoc. apply FI_minmax. exact J.
    + rewrite app_nil_r. exact J.
Qed.

Lemma Forall_first {A} (P : A -> Prop) n l : Forall P l -> Forall P (firstn n l).
Proof. rewrite !Forall_forall. intros H x Hx. apply H. rewrite <- (firstn_skipn n l). apply in_or_app. auto. Qed.
Lemma nth_firstn {A} (l : list A) i x : nth_error l i = Some x -> firstn (S i) l = firstn i l ++ [x].
Proof. revert i. induction l; intros [|i] E; simpl in *; try discriminate; [congruence|]. f_equal. now apply IHl. Qed.
Lemma nth_firstn_length {A} (l : list A) i x : nth_error l i = Some x -> length (firstn i l) = i.
Proof. intros E. apply firstn_length_le. assert (i < length l)%nat by (apply nth_error_Some; congruence). lia. Qed.

Lemma add_fail o a r op i k r' : AInv o a r -> is_add op = true -> r_add_all_fail i k (op_values op) r = Some r' ->
  AInv o (a_step a (op, Some (AtValue i k), FThrew)) (r_seen op r').
Proof.
  intros I A E. unfold r_add_all_fail in E. destruct (nth_error (op_values op) i) as [v|] eqn:Ev; [|discriminate].
  apply (FI_add_all _ _ _ _ _ _ (firstn i (op_values op))) in I.
  apply (FI_add1_fail _ _ _ _ _ _ _ _ _ _ I) in E. rewrite <- !app_assoc, <- (nth_firstn _ _ _ Ev) in E.
  rewrite (nth_firstn_length _ _ _ Ev) in E.
  unfold AInv. cbn [a_step a_tried a_extremes a_declared a_extra a_seen]. rewrite Z.add_assoc.
  destruct op; try discriminate; cbn [r_seen]; [| | |exact E|]; destruct E; constructor; auto.
Qed.

Section NE.
  Variable ne : nat -> list Z -> list Z.
  Hypothesis Hne : nth_element_ok ne.

  Lemma FI_reduce o vs es t b s r : FI o vs es t b s r ->
    exists r', r_reduce ne r = Ok r' /\ FI o vs es t b s r' /\ (length (r_data r') <= 1)%nat.
  Proof.
    intros I. assert (I' := I). destruct I' as [Io Is Imn Imx Ia Isub It Ib Il Ie].
    unfold r_reduce, r_lossy_count. rewrite Io, ctor_opt_limit.
    set (d0 := if rmode_eqb (r_cur r) Sorting then upd_last isort (r_data r) else r_data r).
    assert (P0 : Permutation (concat d0) (concat (r_data r))).
    { unfold d0. destruct (rmode_eqb _ _); [apply upd_last_isort_perm|reflexivity]. }
    assert (S0 : fshape (o_limit o) (o_levels o) d0).
    { unfold d0. destruct (rmode_eqb _ _); auto. apply upd_last_fshape; auto using isort_length. }
    assert (L0 : length d0 = length (r_data r)).
    { unfold d0. destruct (rmode_eqb _ _); auto. apply upd_last_length. }
    destruct (r_data r) as [|x0 d] eqn:Ed.
    { exists r. split; [reflexivity|]. split; [exact I|]. rewrite Ed. simpl. lia. }
    clearbody d0.
    destruct (length d0 =? 1)%nat eqn:El.
    - apply Nat.eqb_eq in El. eexists; split; [reflexivity|]. split; [|simpl; lia].
      constructor; simpl; auto.
      + eapply submultiset_perm_l; [symmetry; exact P0|auto].
      + unfold stored in *. simpl. rewrite (Permutation_length P0). rewrite Ed in Ib. auto.
    - apply Nat.eqb_neq in El.
      destruct (fshape_cases _ _ _ S0) as [->|[(v & -> & _)|(v0 & A & lst & E0 & Hv0 & HA & Hl & H1 & Hn)]];
        [simpl in L0; discriminate|simpl in El; lia|].
      destruct (reduce_loop_entry0 ne Hne (r_cur r) (o_limit o) v0 A lst Hv0 HA Hl) as (v0' & oth & EL & LV & SV).
      rewrite <- E0 in EL, SV. rewrite EL. cbn [bind].
      assert (LC : Z.of_nat (length (concat (x0 :: d))) =
                   Z.of_nat (o_limit o) * Z.of_nat (length (x0 :: d) - 2) + Z.of_nat (length (back (x0 :: d))) + Z.of_nat (o_limit o)).
      { rewrite (fshape_length _ _ _ Is). rewrite <- L0, E0. simpl. rewrite app_length. simpl. nia. }
      assert (LN : (2 <= length (x0 :: d))%nat) by (rewrite <- L0, E0; simpl; rewrite app_length; simpl; lia).
      rewrite (proj2 (Nat.ltb_ge (length (x0 :: d)) 2) LN).
      eexists; split; [reflexivity|]. split; [|simpl; lia].
      constructor; simpl r_total; simpl r_empty; auto.
      + simpl. right. exists [], v0'. simpl. repeat split; auto; try (rewrite E0 in Hn; simpl in Hn; lia).
      + simpl. rewrite app_nil_r. eapply submultiset_trans; [exact SV|].
        eapply submultiset_perm_l; [symmetry; exact P0|]. auto.
      + unfold stored in *. simpl r_lossy. simpl r_data. simpl concat. rewrite app_nil_r, LV.
        change (length (x0 :: d) - 2)%nat with (length d - 1)%nat in LC. rewrite u64_add_l, <- Ib, Ed, LC. apply (f_equal u64). lia.
      + cbn [r_lossy]. apply u64_range.
  Qed.

  Lemma FI_clone o vs es t b s r : FI o vs es t b s r -> FI o vs es t b s (r_clone r).
  Proof.
    intros []. constructor; simpl; auto. rewrite fi_opt0. apply ctor_opt_idem.
  Qed.

  (** What detach() gives, by the account. *)
  Definition recorded_as (o : ropts) (ac : account) (a : adata) : Prop :=
    ad_count a = u64 (a_declared ac) /\ ad_min a = fold_right Z.min i64_max (a_extremes ac) /\
    ad_max a = fold_right Z.max i64_min (a_extremes ac) /\ f64_to_i64 (fst (avg_of (a_tried ac))) = Ok (ad_avg a) /\
    submultiset (ad_data a) (a_tried ac) /\ (length (ad_data a) <= o_limit o)%nat /\ 0 <= ad_lossy a < two64 /\
    u64 (ad_lossy a + Z.of_nat (length (ad_data a))) = u64 (a_declared ac + a_extra ac).

  Lemma detach_account o ac r : AInv o ac r ->
    match f64_to_i64 (fst (avg_of (a_tried ac))) with
    | Ok _ => exists d r', r_detach ne r = Ok (d, r') /\
        (if a_seen ac then AInv o account0 r' /\ exists a, d = Some a /\ recorded_as o ac a else d = None /\ r' = r)
    | Ub => r_detach ne r = if a_seen ac then Ub else Ok (None, r)
    | Exn => False
    end.
  Proof.
    intros I. unfold r_detach. rewrite (fi_seen _ _ _ _ _ _ _ I).
    destruct (FI_reduce _ _ _ _ _ _ _ I) as (r1 & E1 & I1 & L1).
    assert (Ea : r_avg r1 = fst (avg_of (a_tried ac))) by (now rewrite <- (fi_avg _ _ _ _ _ _ _ I1)).
    destruct (f64_to_i64 (fst (avg_of (a_tried ac)))) as [z| |] eqn:Ez.
    - destruct (a_seen ac) eqn:Es; cbn [negb]; [|exists None, r; auto].
      rewrite E1. cbn [bind]. rewrite Ea, Ez. cbn [bind]. eexists _, _. split; [reflexivity|].
      split; [exact (FI_clear _ _ _ _ _ _ _ I1)|]. eexists. split; [reflexivity|].
      destruct I1 as [Io Is Imn Imx Ia Isub It Ib Il Ie].
      assert (HD : match r_data r1 with [] => [] | v :: _ => v end = concat (r_data r1)).
      { destruct (r_data r1) as [|v [|]]; simpl; auto; [now rewrite app_nil_r|simpl in L1; lia]. }
      unfold recorded_as, ad_count, ad_lossy, ad_min, ad_max, ad_avg; simpl. rewrite HD.
      split; [auto|]. split; [auto|]. split; [auto|]. split; [auto|]. split; [auto|]. split; [|split; auto].
      rewrite <- HD. destruct Is as [->|(init & lst & Ed & Hi & Hl & H1 & Hn)]; simpl; [lia|].
      rewrite Ed in *. destruct init as [|x init]; simpl; auto. rewrite (Forall_inv Hi). auto.
    - destruct (a_seen ac); cbn [negb]; auto. rewrite E1. cbn [bind]. now rewrite Ea, Ez.
    - unfold f64_to_i64 in Ez. destruct (fst _); try discriminate. unfold chk in Ez. destruct (in_i64 _); discriminate.
  Qed.

  Definition fop_typed (q : rop * option failure) : Prop := op_typed (fst q).

  Lemma step_add op r : is_add op = true -> exists r', r_step ne r op = Ok r'.
  Proof. destruct op; try discriminate; simpl; eauto. Qed.
  Lemma plain_add op r : is_add op = true -> f_plain ne op r = (r' <- r_step ne r op ;; Ok (FRet None, Sound r')).
  Proof. destruct op; try discriminate; auto. Qed.
  Lemma a_step_add a op f d : is_add op = true -> a_step a (op, f, FRet d) =
    mk_account (a_tried a ++ op_values op) (a_extremes a ++ op_extremes op) (a_declared a + op_declared op)
               (a_extra a + op_excess op) true.
  Proof. destruct op; try discriminate; destruct f as [[]|]; auto. Qed.

  Lemma a_step_ret a op f d : a_step a (op, f, FRet d) = a_step a (op, None, FRet d).
  Proof. destruct f as [[]|]; auto. Qed.
  Lemma plain_inv o a op f r e s : AInv o a r -> is_u64 (op_declared op) -> f_plain ne op r = Ok (e, s) ->
    exists r', s = Sound r' /\ AInv o (a_step a (op, f, e)) r'.
  Proof.
    intros I U E. destruct (is_add op) eqn:A.
    - rewrite (plain_add _ _ A) in E. destruct (step_add op r A) as (r' & Er). rewrite Er in E. cbn [bind] in E.
      injection E as <- <-. exists r'. split; auto. rewrite (a_step_add _ _ _ _ A). eapply add_plain; eauto.
    - destruct op; try discriminate; unfold f_plain in E; cbn [r_step] in E.
      + destruct (FI_reduce _ _ _ _ _ _ _ I) as (r1 & E1 & I1 & _). rewrite E1 in E. cbn [bind] in E. injection E as <- <-. rewrite a_step_ret. eauto.
      + destruct (r_get_reduced ne r) as [d| |]; cbn [bind] in E; try discriminate. injection E as <- <-. rewrite a_step_ret. eauto.
      + injection E as <- <-. eexists. split; [reflexivity|]. rewrite a_step_ret. exact (FI_clear _ _ _ _ _ _ _ I).
      + pose proof (detach_account o a r I) as D. destruct (f64_to_i64 (fst (avg_of (a_tried a)))).
        * destruct D as (d & r' & Ed & D). rewrite Ed in E. cbn [bind] in E. injection E as <- <-. exists r'. split; auto. rewrite a_step_ret.
          destruct (a_seen a); [destruct D as (D & x & -> & _); exact D|destruct D as (-> & ->); exact I].
        * destruct (a_seen a); rewrite D in E; [discriminate|]. cbn [bind] in E. injection E as <- <-. rewrite a_step_ret. eauto.
        * contradiction.
  Qed.

  Lemma sound_inv o a op f r e s : AInv o a r -> is_u64 (op_declared op) -> f <> Some AtFree -> f_sound ne op f r = Ok (e, s) ->
    exists r', s = Sound r' /\ AInv o (a_step a (op, f, e)) r'.
  Proof.
    intros I U F E. destruct f as [[i k| |]|]; [| |congruence|].
    - unfold f_sound in E. destruct (is_add op) eqn:A; [|eapply plain_inv; eauto].
      destruct (r_add_all_fail i k (op_values op) r) as [r1|] eqn:E1; [|eapply plain_inv; eauto].
      injection E as <- <-. eexists. split; [reflexivity|]. eapply add_fail; eauto.
    - destruct op; cbn [f_sound] in E; try (eapply plain_inv; eassumption).
      + injection E as <- <-. eauto.
      + destruct (r_empty r); [eapply plain_inv; eassumption|]. injection E as <- <-. eauto.
    - destruct op; cbn [f_sound] in E; eapply plain_inv; eassumption.
  Qed.

  Lemma run_inv_f o ops : Forall fop_typed ops -> Forall not_at_free ops -> forall a r es s,
    AInv o a r -> f_run ne (Sound r) ops = Ok (es, s) ->
    exists r', s = Sound r' /\ AInv o (fold_left a_step (combine ops es) a) r' /\ length es = length ops.
  Proof.
    induction ops as [|[op f] ops IH]; intros HT HF a r es s I E; cbn [f_run] in E.
    - injection E as <- <-. simpl. eauto.
    - cbn [f_call] in E. destruct (f_sound ne op f r) as [[e s1]| |] eqn:E1; cbn [bind] in E; try discriminate.
      apply (sound_inv o a) in E1; auto; [|exact (proj2 (Forall_inv HT))|exact (Forall_inv HF)].
      destruct E1 as (r1 & -> & I1). destruct (f_run ne (Sound r1) ops) as [[es' s']| |] eqn:E2; cbn [bind] in E; try discriminate.
      injection E as <- <-. destruct (IH (Forall_inv_tail HT) (Forall_inv_tail HF) _ _ _ _ I1 E2) as (r' & -> & I' & L).
      exists r'. simpl. auto.
  Qed.

  Lemma published_as o ops ac a : Forall fop_typed ops -> Forall not_at_free ops -> f_publishes ne o ops ac a -> recorded_as o ac a.
  Proof.
    intros HT HF (es & s & s' & E & -> & D). destruct (run_inv_f o ops HT HF account0 _ _ _ (FI_new o) E) as (r & -> & I & _).
    cbn [f_call f_sound f_plain] in D. pose proof (detach_account _ _ _ I) as K. unfold account_of in *.
    destruct (f64_to_i64 (fst (avg_of (a_tried (fold_left a_step (combine ops es) account0))))).
    - destruct K as (d & r' & Ed & K). rewrite Ed in D. cbn [bind] in D. injection D as -> <-.
      destruct (a_seen _); [destruct K as (_ & x & Ex & K); injection Ex as <-; exact K|destruct K; discriminate].
    - destruct (a_seen _); rewrite K in D; [discriminate|]. cbn [bind] in D. discriminate.
    - contradiction.
  Qed.

  (** ** No call is undefined *)
  Lemma tried_le a op f e : (length (a_tried (a_step a (op, f, e))) <= length (a_tried a) + length (op_values op))%nat /\
    (Forall val_safe (a_tried a) -> op_safe op -> Forall val_safe (a_tried (a_step a (op, f, e)))).
  Proof.
    destruct e as [d|].
    - rewrite a_step_ret. split.
      + destruct op; cbn [a_step a_tried]; rewrite ?app_length; try lia; [simpl; lia|destruct d; simpl; lia].
      + intros H1 H2. unfold op_safe in H2. destruct op; cbn [a_step a_tried]; try (apply Forall_app; now split); auto. destruct d; simpl; auto.
    - destruct f as [[i k| |]|]; cbn [a_step a_tried]; try (split; auto; lia). split.
      + rewrite app_length, firstn_length. lia.
      + intros H1 H2. apply Forall_app. split; auto. now apply Forall_first.
  Qed.
  Lemma plain_ok o a op r : AInv o a r -> Forall val_safe (a_tried a) -> Z.of_nat (length (a_tried a)) < two64 ->
    exists e s, f_plain ne op r = Ok (e, s).
  Proof.
    intros I HS HL. destruct (avg_cast_safe _ HS HL) as [z Ez].
    destruct (is_add op) eqn:A.
    - rewrite (plain_add _ _ A). destruct (step_add op r A) as (r' & Er). rewrite Er. cbn [bind]. eauto.
    - destruct op; try discriminate; unfold f_plain; cbn [r_step].
      + destruct (FI_reduce _ _ _ _ _ _ _ I) as (r1 & E1 & _). rewrite E1. cbn [bind]. eauto.
      + pose proof (detach_account o a _ (FI_clone _ _ _ _ _ _ _ I)) as D. rewrite Ez in D. destruct D as (d & r' & Ed & _).
        unfold r_get_reduced. rewrite Ed. cbn [bind]. eauto.
      + cbn [bind]. eauto.
      + pose proof (detach_account o a _ I) as D. rewrite Ez in D. destruct D as (d & r' & Ed & _). rewrite Ed. cbn [bind]. eauto.
  Qed.
  Lemma sound_ok o a op f r : AInv o a r -> f <> Some AtFree -> Forall val_safe (a_tried a) -> Z.of_nat (length (a_tried a)) < two64 ->
    exists e s, f_sound ne op f r = Ok (e, s).
  Proof.
    intros I F HS HL. destruct (plain_ok o a op r I HS HL) as (e & s & E). destruct f as [[i k| |]|]; [| |congruence|].
    - unfold f_sound. destruct (is_add op); eauto. destruct (r_add_all_fail _ _ _ _); eauto.
    - destruct op; cbn [f_sound]; eauto. destruct (r_empty r); eauto.
    - destruct op; cbn [f_sound]; eauto.
  Qed.
  Lemma run_ok_f o ops : Forall fop_typed ops -> Forall not_at_free ops -> Forall op_safe (map fst ops) -> forall a r,
    AInv o a r -> Forall val_safe (a_tried a) -> Z.of_nat (length (a_tried a) + length (values (map fst ops))) < two64 ->
    exists es r', f_run ne (Sound r) ops = Ok (es, Sound r') /\ let a' := fold_left a_step (combine ops es) a in
      AInv o a' r' /\ Forall val_safe (a_tried a') /\ Z.of_nat (length (a_tried a')) < two64.
  Proof.
    induction ops as [|[op f] ops IH]; intros HT HF HO a r I HS HL; cbn [f_run f_call map fst] in *.
    - exists [], r. simpl. split; [reflexivity|]. split; [auto|]. split; auto. simpl in HL. lia.
    - change (values (op :: map fst ops)) with (op_values op ++ values (map fst ops)) in HL. rewrite app_length in HL.
      destruct (sound_ok o a op f r I (Forall_inv HF) HS) as (e & s & E); [lia|]. rewrite E. cbn [bind].
      destruct (sound_inv o a op f r e s I (proj2 (Forall_inv HT)) (Forall_inv HF) E) as (r1 & -> & I1).
      destruct (tried_le a op f e) as [T1 T2].
      destruct (IH (Forall_inv_tail HT) (Forall_inv_tail HF) (Forall_inv_tail HO) _ r1 I1) as (es & r' & E2 & K).
      { apply T2; auto. exact (Forall_inv HO). }
      { lia. }
      rewrite E2. cbn [bind]. exists (e :: es), r'. split; [reflexivity|]. exact K.
  Qed.

  (** ** Without failures: the ordinary reducer *)
  Lemma plain_same op r : f_sound ne op None r = f_plain ne op r.
  Proof. destruct op; reflexivity. Qed.
  Lemma plain_step op r : match f_plain ne op r with
    | Ok (e, s) => exists r' d, r_step ne r op = Ok r' /\ s = Sound r' /\ e = FRet d
    | Ub => r_step ne r op = Ub
    | Exn => r_step ne r op = Exn
    end.
  Proof.
    destruct op; unfold f_plain; cbn [r_step bind]; eauto.
    - destruct (r_reduce ne r); cbn [bind]; eauto.
    - destruct (r_get_reduced ne r); cbn [bind]; eauto.
    - destruct (r_detach ne r) as [[d r']| |]; cbn [bind]; eauto.
  Qed.
  Lemma run_same ops : Forall no_failure ops -> forall r, match f_run ne (Sound r) ops with
    | Ok (es, s) => exists r', r_run ne r (map fst ops) = Ok r' /\ s = Sound r' /\ length es = length ops /\ Forall (fun e => e <> FThrew) es
    | Ub => r_run ne r (map fst ops) = Ub
    | Exn => r_run ne r (map fst ops) = Exn
    end.
  Proof.
    induction ops as [|[op f] ops IH]; intros HN r; cbn [f_run f_call map fst r_run].
    - exists r. auto.
    - assert (f = None) by exact (Forall_inv HN). subst f. rewrite plain_same. pose proof (plain_step op r) as P.
      destruct (f_plain ne op r) as [[e s]| |]; cbn [bind]; try (now rewrite P).
      destruct P as (r' & d & -> & -> & ->). cbn [bind]. specialize (IH (Forall_inv_tail HN) r').
      destruct (f_run ne (Sound r') ops) as [[es s]| |]; cbn [bind]; auto.
      destruct IH as (r2 & H1 & H2 & H3 & H4). exists r2. split; auto. split; auto. split; [simpl; auto|]. constructor; auto. discriminate.
  Qed.

  (** ** After clear() *)
  Definition of_opts (o : ropts) (s : fred) : Prop := r_opt (f_red s) = ctor_opt o.
  Lemma add1_opt v r : r_opt (r_add1 v r) = r_opt r.
  Proof. unfold r_add1. destruct (_ || _); [destruct (_ || _)|]; auto. Qed.
  Lemma add_all_opt vs : forall r, r_opt (r_add_all vs r) = r_opt r.
  Proof. induction vs as [|v vs IH]; intros r; simpl; auto. unfold r_add_all in *. rewrite IH. apply add1_opt. Qed.
  Lemma reduce_opt r r' : r_reduce ne r = Ok r' -> r_opt r' = r_opt r.
  Proof.
    unfold r_reduce. destruct (r_data r); [congruence|]. destruct (_ =? 1)%nat; [intros E; now injection E as <-|].
    destruct (reduce_loop _ _ _ _ _ _ _); cbn [bind]; try discriminate. intros E. now injection E as <-.
  Qed.
  Lemma step_opt op r r' : r_step ne r op = Ok r' -> r_opt r' = r_opt r.
  Proof.
    intros E. destruct op; cbn [r_step] in E.
    - injection E as <-. unfold r_add, r_account. simpl. apply add1_opt.
    - injection E as <-. unfold r_add_arr, r_account. simpl. apply add_all_opt.
    - injection E as <-. unfold r_add_vec, r_add_arr, r_account. simpl. apply add_all_opt.
    - injection E as <-. unfold r_add_list, r_account. simpl. apply add_all_opt.
    - injection E as <-. unfold r_add_red, r_add_arr, r_account. destruct (negb _), (negb _); simpl; apply add_all_opt.
    - now apply reduce_opt.
    - destruct (r_get_reduced ne r); cbn [bind] in E; try discriminate. now injection E as <-.
    - now injection E as <-.
    - unfold r_detach in E. destruct (r_empty r); [cbn [bind] in E; now injection E as <-|].
      destruct (r_reduce ne r) as [r1| |] eqn:E1; cbn [bind] in E; try discriminate.
      destruct (f64_to_i64 _); cbn [bind] in E; try discriminate. injection E as <-. simpl. now apply reduce_opt.
  Qed.
  Lemma fail_opt i k vs r r1 : r_add_all_fail i k vs r = Some r1 -> r_opt r1 = r_opt r.
  Proof.
    unfold r_add_all_fail. destruct (nth_error vs i) as [v|]; [|discriminate]. unfold r_add1_fail.
    destruct (_ || _); [destruct (_ || _); [discriminate|]|]; destruct k; try discriminate; intros E; injection E as <-; simpl; apply add_all_opt.
  Qed.
  Lemma plain_opt op r e s : f_plain ne op r = Ok (e, s) -> r_opt (f_red s) = r_opt r.
  Proof.
    intros E. pose proof (plain_step op r) as P. rewrite E in P. destruct P as (r' & d & P & -> & _). simpl. now apply (step_opt op).
  Qed.
  Lemma reduce_fail_opt r r1 : r_reduce_fail ne r = Ok (Some r1) -> r_opt r1 = r_opt r.
  Proof.
    unfold r_reduce_fail. destruct (_ <? _)%nat; [discriminate|]. destruct (r_reduce ne r) eqn:E1; cbn [bind]; try discriminate.
    intros E. injection E as <-. now apply reduce_opt.
  Qed.
  Lemma call_opt op f s e s' : f_call ne op f s = Ok (e, s') -> r_opt (f_red s') = r_opt (f_red s).
  Proof.
    destruct s as [r|r]; cbn [f_call f_red]; intros E.
    - destruct f as [[i k| |]|].
      + unfold f_sound in E. destruct (is_add op); [|now apply (plain_opt op _ e)].
        destruct (r_add_all_fail i k (op_values op) r) as [r1|] eqn:E1; [|now apply (plain_opt op _ e)].
        injection E as <- <-. simpl. rewrite <- (fail_opt _ _ _ _ _ E1). destruct op; reflexivity.
      + destruct op; cbn [f_sound] in E; try (now apply (plain_opt _ _ _ _ E)).
        * now injection E as <- <-.
        * destruct (r_empty r); [now apply (plain_opt _ _ _ _ E)|now injection E as <- <-].
      + destruct op; cbn [f_sound] in E; try (now apply (plain_opt _ _ _ _ E)).
        * destruct (r_reduce_fail ne r) as [[r1|]| |] eqn:E1; cbn [bind] in E; try discriminate; [|now apply (plain_opt _ _ _ _ E)].
          injection E as <- <-. simpl. now apply reduce_fail_opt.
        * destruct (r_empty r); [now apply (plain_opt _ _ _ _ E)|].
          destruct (r_reduce_fail ne r) as [[r1|]| |] eqn:E1; cbn [bind] in E; try discriminate; [|now apply (plain_opt _ _ _ _ E)].
          injection E as <- <-. simpl. now apply reduce_fail_opt.
      + rewrite plain_same in E. now apply (plain_opt _ _ _ _ E).
    - assert (K : forall r', (r0 <- r_step ne r op ;; Ok (FRet None, Broken r0)) = Ok (e, Broken r') -> r_opt r' = r_opt r).
      { intros r' H. destruct (r_step ne r op) eqn:Er; cbn [bind] in H; try discriminate. injection H as _ <-. now apply (step_opt op). }
      unfold f_broken in E. destruct op; try discriminate.
      all: try (destruct (op_values _); [|discriminate]; cbn [r_step bind] in E; injection E as <- <-; apply K; reflexivity).
      + now injection E as <- <-.
      + destruct (r_empty r); [now injection E as <- <-|discriminate].
  Qed.
  Lemma run_opt ops : forall s es s', f_run ne s ops = Ok (es, s') -> r_opt (f_red s') = r_opt (f_red s).
  Proof.
    induction ops as [|[op f] ops IH]; intros s es s' E; cbn [f_run] in E.
    - now injection E as <- <-.
    - destruct (f_call ne op f s) as [[e s1]| |] eqn:E1; cbn [bind] in E; try discriminate.
      destruct (f_run ne s1 ops) as [[es1 s2]| |] eqn:E2; cbn [bind] in E; try discriminate. injection E as <- <-.
      rewrite (IH _ _ _ E2). exact (call_opt _ _ _ _ _ E1).
  Qed.
  Lemma f_run_app o1 o2 : forall s, f_run ne s (o1 ++ o2) = ('(e1, s1) <- f_run ne s o1 ;; '(e2, s2) <- f_run ne s1 o2 ;; Ok (e1 ++ e2, s2)).
  Proof.
    induction o1 as [|[op f] o1 IH]; intros s; cbn [f_run app bind].
    - destruct (f_run ne s o2) as [[]| |]; reflexivity.
    - destruct (f_call ne op f s) as [[e s1]| |]; cbn [bind]; auto. rewrite IH.
      destruct (f_run ne s1 o1) as [[]| |]; cbn [bind]; auto. destruct (f_run ne f0 o2) as [[]| |]; reflexivity.
  Qed.
  Lemma f_run_length ops : forall s es s', f_run ne s ops = Ok (es, s') -> length es = length ops.
  Proof.
    induction ops as [|[op f] ops IH]; intros s es s' E; cbn [f_run] in E.
    - now injection E as <- <-.
    - destruct (f_call ne op f s) as [[e s1]| |] eqn:E1; cbn [bind] in E; try discriminate.
      destruct (f_run ne s1 ops) as [[es1 s2]| |] eqn:E2; cbn [bind] in E; try discriminate. injection E as <- <-. simpl. f_equal. eauto.
  Qed.
  Lemma clear_call f s : exists r, f_call ne OpClear f s = Ok (FRet None, Sound r) /\
    (forall o, of_opts o s -> AInv o account0 r) /\ (r_cur r = r_cur (f_red s)).
  Proof.
    assert (K : forall o r, r_opt r = ctor_opt o -> AInv o account0 (r_clear r)).
    { intros o r H. constructor; simpl; auto; try (unfold two64; lia); [now left|exists []; reflexivity]. }
    destruct s as [r|r]; [|exists (r_clear r); split; [reflexivity|split; [intros o H; apply K; exact H|reflexivity]]].
    exists (r_clear r). split; [|split; [intros o H; apply K; exact H|reflexivity]]. destruct f as [[]|]; reflexivity.
  Qed.
  Lemma after_clear o before f after ac a : Forall fop_typed after -> Forall not_at_free after ->
    f_publishes ne o (before ++ (OpClear, f) :: after) ac a -> recorded_as o ac a /\
    exists es, length es = length after /\ ac = account_of after es.
  Proof.
    intros HT HF (es & s & s' & E & -> & D). rewrite f_run_app in E.
    destruct (f_run ne _ before) as [[e1 s1]| |] eqn:E1; cbn [bind] in E; try discriminate. cbn [f_run] in E.
    destruct (clear_call f s1) as (r & Ec & Ic & _). rewrite Ec in E. cbn [bind] in E.
    assert (O1 : of_opts o s1). { unfold of_opts. rewrite (run_opt _ _ _ _ E1). reflexivity. }
    destruct (f_run ne (Sound r) after) as [[e2 s2]| |] eqn:E2; cbn [bind] in E; try discriminate. injection E as <- <-.
    assert (AC : account_of (before ++ (OpClear, f) :: after) (e1 ++ FRet None :: e2) = account_of after e2).
    { unfold account_of. assert (C : forall (A B : Type) (l1 l2 : list A) (m1 m2 : list B), length m1 = length l1 ->
        combine (l1 ++ l2) (m1 ++ m2) = combine l1 m1 ++ combine l2 m2).
      { intros A B l1 l2. induction l1 as [|x l1 IH]; intros [|y m1] m2 H; simpl in *; try discriminate; auto. f_equal. apply IH. lia. }
      rewrite C by exact (f_run_length _ _ _ _ E1). rewrite fold_left_app. cbn [combine fold_left]. rewrite a_step_ret. reflexivity. }
    rewrite AC. split; [|exists e2; split; auto; exact (f_run_length _ _ _ _ E2)].
    destruct (run_inv_f o after HT HF account0 r _ _ (Ic o O1) E2) as (r' & -> & I & _).
    cbn [f_call f_sound f_plain] in D. pose proof (detach_account _ _ _ I) as K. unfold account_of in *.
    destruct (f64_to_i64 (fst (avg_of (a_tried (fold_left a_step (combine after e2) account0))))).
    - destruct K as (d & r2 & Ed & K). rewrite Ed in D. cbn [bind] in D. injection D as -> <-.
      destruct (a_seen _); [destruct K as (_ & x & Ex & K); injection Ex as <-; exact K|destruct K; discriminate].
    - destruct (a_seen _); rewrite K in D; [discriminate|]. cbn [bind] in D. discriminate.
    - contradiction.
  Qed.
End NE.

Lemma extremes_typed ops : Forall fop_typed ops -> forall es a, Forall i64 (a_extremes a) ->
  Forall i64 (a_extremes (fold_left a_step (combine ops es) a)).
Proof.
  induction ops as [|[op f] ops IH]; intros HT [|e es] a H; simpl combine; cbn [fold_left]; auto.
  apply IH; [exact (Forall_inv_tail HT)|]. destruct (Forall_inv HT) as [H1 _]. cbn [fst] in H1. destruct e as [d|].
  - rewrite a_step_ret. destruct op; cbn [a_step a_extremes]; try (apply Forall_app; now split); auto. destruct d; simpl; auto.
  - destruct f as [[i k| |]|]; cbn [a_step a_extremes]; auto. apply Forall_app. split; auto. apply Forall_first.
    unfold op_extremes in H1. now apply Forall_app in H1.
Qed.
