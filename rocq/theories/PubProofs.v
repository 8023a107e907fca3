(** Consequences of the reducer invariant, in the form used by the property theorems. *)
From Coq Require Import ZArith List Bool Permutation Lia Arith.
From Verif Require Import Base SortFacts ModelTypes ModelAvg ModelReducer SpecReducer ListFacts ReducerProofs StratProofs.
Import ListNotations.
Local Open Scope Z_scope.

Lemma fold_min_is es : es <> [] -> Forall i64 es -> is_min (fold_right Z.min i64_max es) es.
Proof.
  intros Hne HF. split.
  - induction HF as [|x l Hx HF IH]; [congruence|]. simpl.
    destruct (Z.min_spec x (fold_right Z.min i64_max l)) as [[? ->]|[? ->]]; [now left|].
    destruct l; [|right; apply IH; discriminate]. simpl in *. unfold i64 in Hx. left. lia.
  - clear Hne. induction HF as [|x l Hx HF IH]; constructor; simpl; [lia|].
    eapply Forall_impl; [|exact IH]. simpl. intros; lia.
Qed.
Lemma fold_max_is es : es <> [] -> Forall i64 es -> is_max (fold_right Z.max i64_min es) es.
Proof.
  intros Hne HF. split.
  - induction HF as [|x l Hx HF IH]; [congruence|]. simpl.
    destruct (Z.max_spec x (fold_right Z.max i64_min l)) as [[? ->]|[? ->]]; [|now left].
    destruct l; [|right; apply IH; discriminate]. simpl in *. unfold i64 in Hx. left. lia.
  - clear Hne. induction HF as [|x l Hx HF IH]; constructor; simpl; [lia|].
    eapply Forall_impl; [|exact IH]. simpl. intros; lia.
Qed.

Lemma is_min_fun a b l : is_min a l -> is_min b l -> a = b.
Proof.
  intros [A1 A2] [B1 B2]. rewrite Forall_forall in *. specialize (A2 _ B1). specialize (B2 _ A1). lia.
Qed.

Lemma window_forall (P : rop -> Prop) ops w : Forall P w -> Forall P ops -> Forall P (fold_left window_step ops w).
Proof.
  revert w; induction ops as [|op ops IH]; intros w Hw HP; simpl; auto.
  apply IH; [|exact (Forall_inv_tail HP)]. assert (Ho := Forall_inv HP).
  destruct op; simpl; auto; try (apply Forall_app; split; auto); constructor.
Qed.

Lemma window_typed ops : Forall op_typed ops -> Forall op_typed (window ops).
Proof. intros. apply window_forall; auto. Qed.

Lemma typed_extremes w : Forall op_typed w -> Forall i64 (extremes w).
Proof.
  induction 1 as [|op w [H _] HF IH]; [constructor|]. unfold extremes. simpl. apply Forall_app. split; auto.
Qed.

Lemma excess_honest w : Forall op_honest w -> excess w = 0.
Proof.
  induction 1 as [|op w H HF IH]; [reflexivity|]. change (op_excess op + excess w = 0).
  unfold op_excess, op_honest in *. lia.
Qed.

Lemma extremes_plain w : (forall d, ~ In (OpAddRed d) w) -> extremes w = values w.
Proof.
  induction w as [|op w IH]; intros H; [reflexivity|]. unfold extremes, values. simpl.
  f_equal; [|apply IH; intros d Hd; eapply H; right; eauto].
  destruct op; unfold op_extremes; simpl; rewrite ?app_nil_r; auto.
  exfalso. eapply H. now left.
Qed.

Lemma fixed_ctor o : fixed_mode o -> o_mode (ctor_opt o) <> Adapt.
Proof.
  unfold fixed_mode, ctor_opt, magic. destruct (o_mode o) eqn:E; rewrite ?E; try congruence.
  intros [H|[H|H]]; [congruence| |].
  - rewrite H. simpl. congruence.
  - destruct (o_levels o =? 0)%nat; simpl; [congruence|]. rewrite (proj2 (Nat.ltb_lt _ _) H). simpl. congruence.
Qed.
Lemma sorting_ctor o : sorting_mode o -> o_mode (ctor_opt o) = Sorting.
Proof.
  unfold sorting_mode, ctor_opt, magic. destruct (o_mode o) eqn:E; rewrite ?E; auto.
  - intros [H|[H _]]; congruence.
  - intros [H|[_ [H|H]]]; [congruence| |].
    + rewrite H. reflexivity.
    + rewrite (proj2 (Nat.ltb_lt _ _) H). now rewrite orb_true_r.
Qed.

Section NE.
  Variable ne : nat -> list Z -> list Z.
  Hypothesis Hne : nth_element_ok ne.

  Lemma detach_some o w r a r' : WInv o w r -> r_detach ne r = Ok (Some a, r') ->
    w <> [] /\ published o w a /\ ad_lossy a = r_lossy_count r /\ WInv o [] r' /\ r_data r' = [].
  Proof.
    intros W E. pose proof (detach_spec ne Hne o w r W) as D.
    destruct (f64_to_i64 (fst (avg_of (values w)))) eqn:Ez.
    - destruct D as (a' & r1 & Ed & W1 & Hd & D). rewrite Ed in E. injection E as -> ->.
      destruct w; [discriminate|]. destruct D as (x & Ex & P & L). injection Ex as <-.
      split; [discriminate|]. auto.
    - destruct w as [|op w]; [discriminate Ez|]. rewrite D in E by discriminate. discriminate.
    - contradiction.
  Qed.

  Lemma pub_inv o ops a : Forall op_typed ops -> publishes ne o ops a ->
    published o (window ops) a /\ window ops <> [].
  Proof.
    intros HT (r & r' & E & D). pose proof (run_inv ne Hne o ops r HT E) as W.
    destruct (detach_some o _ r a r' W D) as (? & ? & _). auto.
  Qed.

  Lemma total_count_run o ops r : Forall op_typed ops -> r_run ne (reducer_new o) ops = Ok r ->
    r_total_count r = u64 (declared (window ops)).
  Proof. intros HT E. apply (w_total _ _ _ (run_inv ne Hne o ops r HT E)). Qed.

  Lemma pub_count o ops a : Forall op_typed ops -> publishes ne o ops a ->
    ad_count a = u64 (declared (window ops)).
  Proof. intros HT P. apply (pub_inv o ops a HT P). Qed.

  Lemma pub_balance o ops a : Forall op_typed ops -> publishes ne o ops a ->
    u64 (ad_lossy a + Z.of_nat (length (ad_data a))) = u64 (declared (window ops) + excess (window ops)) /\
    0 <= ad_lossy a < two64.
  Proof. intros HT P. destruct (pub_inv o ops a HT P) as ((_ & _ & _ & B & R & _) & _). auto. Qed.

  Lemma pub_split o ops a : Forall op_typed ops -> Forall op_honest (window ops) -> publishes ne o ops a ->
    ad_count a = u64 (ad_lossy a + Z.of_nat (length (ad_data a))).
  Proof.
    intros HT HH P. destruct (pub_balance o ops a HT P) as [B _].
    rewrite B, (excess_honest _ HH), Z.add_0_r. now apply (pub_count o).
  Qed.

  Lemma lossy_same o ops r a r' : Forall op_typed ops -> r_run ne (reducer_new o) ops = Ok r ->
    r_detach ne r = Ok (Some a, r') -> r_lossy_count r = ad_lossy a.
  Proof.
    intros HT E D. destruct (detach_some o _ r a r' (run_inv ne Hne o ops r HT E) D) as (_ & _ & L & _). auto.
  Qed.

  Lemma pub_sub o ops a : Forall op_typed ops -> publishes ne o ops a ->
    submultiset (ad_data a) (values (window ops)).
  Proof. intros HT P. destruct (pub_inv o ops a HT P) as [Q _]. apply Q. Qed.

  Lemma mem_bound o ops r : Forall op_typed ops -> r_run ne (reducer_new o) ops = Ok r ->
    (r_size r <= o_limit o * o_levels o)%nat.
  Proof.
    intros HT E. destruct (run_inv ne Hne o ops r HT E) as [I _ _ _].
    apply shape_full_length. exact (inv_shape _ _ _ _ I).
  Qed.

  Lemma pub_size o ops a : Forall op_typed ops -> publishes ne o ops a ->
    length (ad_data a) = if (o_levels o =? 0)%nat then O else Nat.min (length (values (window ops))) (o_limit o).
  Proof. intros HT P. destruct (pub_inv o ops a HT P) as [Q _]. apply Q. Qed.

  Lemma pub_minmax o ops a : Forall op_typed ops -> publishes ne o ops a -> extremes (window ops) <> [] ->
    is_min (ad_min a) (extremes (window ops)) /\ is_max (ad_max a) (extremes (window ops)).
  Proof.
    intros HT P Hn. destruct (pub_inv o ops a HT P) as ((_ & _ & _ & _ & _ & Mn & Mx & _) & _).
    rewrite Mn, Mx. assert (HI := typed_extremes _ (window_typed _ HT)).
    split; [now apply fold_min_is|now apply fold_max_is].
  Qed.

  Lemma pub_minmax_plain o ops a : Forall op_typed ops -> publishes ne o ops a ->
    (forall d, ~ In (OpAddRed d) (window ops)) -> values (window ops) <> [] ->
    is_min (ad_min a) (values (window ops)) /\ is_max (ad_max a) (values (window ops)).
  Proof.
    intros HT P Hd Hn. rewrite <- (extremes_plain _ Hd) in *. now apply (pub_minmax o).
  Qed.

  Lemma pub_sentinel o ops a : Forall op_typed ops -> publishes ne o ops a -> extremes (window ops) = [] ->
    ad_min a = i64_max /\ ad_max a = i64_min /\ ad_avg a = 0 /\ ad_data a = [].
  Proof.
    intros HT P Hn. destruct (pub_inv o ops a HT P) as ((_ & _ & _ & _ & _ & Mn & Mx & Av & Sb & _) & _).
    rewrite Hn in Mn, Mx. 
    assert (V : values (window ops) = []).
    { destruct (values (window ops)) eqn:E; auto. exfalso.
      assert (H : In z (extremes (window ops))); [|rewrite Hn in H; destruct H].
      assert (In z (values (window ops))) as H by (rewrite E; now left).
      unfold values, extremes in *. apply in_flat_map in H as (op & H1 & H2). apply in_flat_map.
      exists op. split; auto. unfold op_extremes. apply in_app_iff; auto. }
    rewrite V in *. repeat split; auto.
    - injection Av; auto.
    - destruct (ad_data a); auto. apply submultiset_length in Sb. simpl in Sb. lia.
  Qed.

  Lemma getters o ops r : Forall op_typed ops -> r_run ne (reducer_new o) ops = Ok r ->
    (extremes (window ops) = [] -> r_get_min r = 0 /\ r_get_max r = 0) /\
    (forall m, is_min m (extremes (window ops)) -> r_get_min r = if m =? i64_max then 0 else m) /\
    (forall m, is_max m (extremes (window ops)) -> r_get_max r = if m =? i64_min then 0 else m).
  Proof.
    intros HT E. pose proof (run_inv ne Hne o ops r HT E) as W. pose proof (w_inv _ _ _ W) as R.
    unfold r_get_min, r_get_max. rewrite (inv_min _ _ _ _ R), (inv_max _ _ _ _ R).
    assert (HI := typed_extremes _ (window_typed _ HT)).
    split; [intros ->; split; reflexivity|]. split; intros m [Hm Bm];
      assert (N : extremes (window ops) <> []) by (intros X; rewrite X in Hm; destruct Hm).
    - destruct (fold_min_is _ N HI) as [A B]. rewrite Forall_forall in *. specialize (B m Hm). specialize (Bm _ A). simpl in *.
      now replace (fold_right Z.min i64_max (extremes (window ops))) with m by lia.
    - destruct (fold_max_is _ N HI) as [A B]. rewrite Forall_forall in *. specialize (B m Hm). specialize (Bm _ A). simpl in *.
      now replace (fold_right Z.max i64_min (extremes (window ops))) with m by lia.
  Qed.

  Lemma pub_avg o ops a lo hi : Forall op_typed ops -> publishes ne o ops a ->
    values (window ops) <> [] -> Z.of_nat (length (values (window ops))) < two64 ->
    - 2 ^ 53 <= lo -> hi <= 2 ^ 53 -> Forall (fun v => lo <= v <= hi) (values (window ops)) ->
    lo <= ad_avg a <= hi.
  Proof.
    intros HT P Hv Hl H1 H2 HF. destruct (pub_inv o ops a HT P) as ((_ & _ & _ & _ & _ & _ & _ & Av & _) & _).
    destruct (avg_cast_bounds _ lo hi Hv Hl H1 H2 HF) as (z & Ez & B). congruence.
  Qed.

  Lemma pub_avg_minmax o ops a : Forall op_typed ops -> publishes ne o ops a ->
    values (window ops) <> [] -> Z.of_nat (length (values (window ops))) < two64 ->
    Forall (fun v => - 2 ^ 53 <= v <= 2 ^ 53) (values (window ops)) ->
    ad_min a <= ad_avg a <= ad_max a.
  Proof.
    intros HT P Hv Hl HF.
    assert (Hx : forall v, In v (values (window ops)) -> In v (extremes (window ops))).
    { intros v H. unfold values, extremes in *. apply in_flat_map in H as (op & H1 & H2). apply in_flat_map.
      exists op. split; auto. unfold op_extremes. apply in_app_iff; auto. }
    assert (Hn : extremes (window ops) <> []).
    { destruct (values (window ops)) as [|v ?]; [congruence|]. intros E. specialize (Hx v (or_introl eq_refl)).
      rewrite E in Hx. destruct Hx. }
    destruct (pub_minmax o ops a HT P Hn) as [[_ Mn] [_ Mx]].
    assert (B : Z.max (ad_min a) (- 2 ^ 53) <= ad_avg a <= Z.min (ad_max a) (2 ^ 53)); [|lia].
    eapply pub_avg; eauto; try lia.
    rewrite Forall_forall in *. intros v H. specialize (HF v H). specialize (Mn v (Hx v H)). specialize (Mx v (Hx v H)). lia.
  Qed.

  Lemma pub_exists o ops : Forall op_typed ops -> Forall op_safe ops -> Z.of_nat (length (values ops)) < two64 ->
    window ops <> [] -> exists a, publishes ne o ops a.
  Proof.
    intros HT HS HL Hw. destruct (run_ok ne Hne o ops HT HS HL) as [r E].
    pose proof (run_inv ne Hne o ops r HT E) as W.
    pose proof (window_values_sub ops []) as [V1 V2]. fold (window ops) in V1, V2.
    specialize (V2 (Forall_nil _) HS). change (length (values [])) with O in V1.
    destruct (avg_cast_safe (values (window ops)) V2 ltac:(lia)) as [z Ez].
    pose proof (detach_spec ne Hne o _ r W) as D. rewrite Ez in D.
    destruct D as (a & r' & Ed & _ & _ & D). destruct (window ops); [congruence|].
    destruct D as (x & -> & _). exists x, r, r'. auto.
  Qed.

  Lemma detach_none o ops r : Forall op_typed ops -> r_run ne (reducer_new o) ops = Ok r -> window ops = [] ->
    r_detach ne r = Ok (None, r).
  Proof.
    intros HT E Hw. pose proof (run_inv ne Hne o ops r HT E) as W. unfold r_detach.
    rewrite (w_empty _ _ _ W), Hw. reflexivity.
  Qed.

  Lemma reduce_total o ops r : Forall op_typed ops -> r_run ne (reducer_new o) ops = Ok r ->
    exists r', r_reduce ne r = Ok r'.
  Proof.
    intros HT E. destruct (reduce_ok ne Hne o _ r (run_inv ne Hne o ops r HT E)) as (r' & E' & _). eauto.
  Qed.

  Lemma pub_lossless o ops a : Forall op_typed ops -> publishes ne o ops a ->
    (1 <= o_levels o)%nat -> (length (values (window ops)) <= o_limit o)%nat ->
    Permutation (ad_data a) (values (window ops)) /\
    ad_lossy a = u64 (declared (window ops) + excess (window ops) - Z.of_nat (length (values (window ops)))).
  Proof.
    intros HT P H1 H2. pose proof (pub_size o ops a HT P) as L. pose proof (pub_sub o ops a HT P) as [q Q].
    destruct (Nat.eqb_spec (o_levels o) 0); [lia|]. rewrite Nat.min_l in L by lia.
    assert (q = []).
    { apply Permutation_length in Q. rewrite app_length in Q. destruct q; auto. simpl in Q. lia. }
    subst q. rewrite app_nil_r in Q. split; auto.
    destruct (pub_balance o ops a HT P) as [B R]. rewrite <- L.
    rewrite <- (u64_id (ad_lossy a)) by auto.
    apply u64_congr in B as [k B]. apply u64_congr. exists k. lia.
  Qed.

  Lemma peek_same o ops r : Forall op_typed ops -> r_run ne (reducer_new o) ops = Ok r ->
    match r_get_reduced ne r, r_detach ne r with
    | Ok (Some a), Ok (Some b, _) => same_summary a b
    | Ok None, Ok (None, _) => True
    | Ub, Ub => True
    | _, _ => False
    end.
  Proof.
    intros HT E. pose proof (run_inv ne Hne o ops r HT E) as W.
    pose proof (clone_inv o _ r W) as W'. unfold r_get_reduced.
    pose proof (detach_spec ne Hne o _ _ W) as D. pose proof (detach_spec ne Hne o _ _ W') as D'.
    destruct (f64_to_i64 (fst (avg_of (values (window ops))))) eqn:Ez.
    - destruct D as (x & r1 & Ed & _ & _ & D). destruct D' as (x' & r1' & Ed' & _ & _ & D').
      rewrite Ed, Ed'. cbn [bind]. destruct (window ops) as [|op w]; [now subst|].
      destruct D as (y & -> & P & L). destruct D' as (y' & -> & P' & L').
      destruct P as (_ & _ & P1 & P2 & P3 & P4 & P5 & P6 & P7 & P8).
      destruct P' as (_ & _ & P1' & P2' & P3' & P4' & P5' & P6' & P7' & P8').
      assert (EL : r_lossy_count (r_clone r) = r_lossy_count r).
      { unfold r_lossy_count, r_clone. simpl. destruct W as [[]].
        rewrite inv_opt, ctor_opt_idem. reflexivity. }
      unfold same_summary. repeat split; congruence.
    - destruct (window ops) as [|op w]; [discriminate Ez|]. rewrite D, D' by discriminate. exact I.
    - destruct D.
  Qed.

  Lemma peek_fixed o ops r : Forall op_typed ops -> r_run ne (reducer_new o) ops = Ok r -> fixed_mode o ->
    r_get_reduced ne r = ('(a, _) <- r_detach ne r ;; Ok a).
  Proof.
    intros HT E Hf. unfold r_get_reduced.
    rewrite (clone_fixed o _ r (run_inv ne Hne o ops r HT E) (fixed_ctor o Hf)). reflexivity.
  Qed.

  Lemma same_window_same o ops1 ops2 a b : Forall op_typed ops1 -> Forall op_typed ops2 ->
    publishes ne o ops1 a -> publishes ne o ops2 b -> window ops1 = window ops2 -> same_summary a b.
  Proof.
    intros H1 H2 P Q E. destruct (pub_inv o ops1 a H1 P) as [A _]. destruct (pub_inv o ops2 b H2 Q) as [B _].
    rewrite <- E in B.
    destruct A as (_ & _ & P1 & P2 & P3 & P4 & P5 & P6 & P7 & P8).
    destruct B as (_ & _ & P1' & P2' & P3' & P4' & P5' & P6' & P7' & P8').
    unfold same_summary. repeat split; try congruence.
    assert (X : u64 (ad_lossy a + Z.of_nat (length (ad_data a))) = u64 (ad_lossy b + Z.of_nat (length (ad_data a)))) by congruence.
    apply u64_congr in X as [k X]. rewrite <- (u64_id (ad_lossy a)), <- (u64_id (ad_lossy b)) by auto.
    apply u64_congr. exists k. lia.
  Qed.

  Lemma window_reset ops1 op ops2 : op = OpDetach \/ op = OpClear -> window (ops1 ++ op :: ops2) = window ops2.
  Proof. intros H. unfold window. rewrite fold_left_app. simpl. destruct H as [->| ->]; reflexivity. Qed.

  Lemma reset_fixed o ops op r : Forall op_typed ops -> op = OpDetach \/ op = OpClear -> fixed_mode o ->
    r_run ne (reducer_new o) (ops ++ [op]) = Ok r -> r = reducer_new o.
  Proof.
    intros HT Hop Hf E.
    assert (HT' : Forall op_typed (ops ++ [op])).
    { apply Forall_app; split; auto. constructor; auto. destruct Hop as [->| ->];
      (split; [constructor|unfold is_u64, op_declared, two64; lia]). }
    pose proof (run_inv ne Hne o _ r HT' E) as W. rewrite window_reset in W by auto. change (window []) with (@nil rop) in W.
    destruct W as [I T B Em]. 
    assert (C := inv_cur _ _ _ _ I (fixed_ctor o Hf)).
    assert (D : r_data r = [] /\ r_lossy r = 0).
    { destruct I as [Io Is Imn Imx Ia Isub If Ifull Il It Ic].
      assert (D : r_data r = []).
      { destruct Is as [?|(init & lst & Ed & _ & Hl & _)]; auto.
        apply submultiset_length in Isub. rewrite Ed, concat_snoc, app_length in Isub. simpl in Isub. lia. }
      split; auto. unfold stored in B. rewrite D in B. simpl in B. rewrite Z.add_0_r in B.
      rewrite u64_id in B by auto. rewrite B. reflexivity. }
    destruct I as [Io Is Imn Imx Ia Isub If Ifull Il It Ic]. destruct D as [D DL].
    unfold avg_of in Ia. simpl in Ia. injection Ia as Ia1 Ia2.
    unfold reducer_new. destruct r; simpl in *. subst. reflexivity.
  Qed.

  Lemma run_app r ops1 ops2 : r_run ne r (ops1 ++ ops2) = (r1 <- r_run ne r ops1 ;; r_run ne r1 ops2).
  Proof.
    revert r; induction ops1 as [|op ops IH]; intros r; simpl; auto.
    destruct (r_step ne r op); simpl; auto.
  Qed.

  Lemma pub_reset_fixed o ops1 op ops2 a b : Forall op_typed ops1 -> op = OpDetach \/ op = OpClear -> fixed_mode o ->
    publishes ne o (ops1 ++ op :: ops2) a -> publishes ne o ops2 b -> a = b.
  Proof.
    intros HT Hop Hf (r & r' & E & D) (s & s' & E' & D').
    change (op :: ops2) with ([op] ++ ops2) in E. rewrite app_assoc, run_app in E.
    destruct (r_run ne (reducer_new o) (ops1 ++ [op])) as [r1| |] eqn:E1; simpl in E; try discriminate.
    apply (reset_fixed o ops1 op r1 HT Hop Hf) in E1. subst r1. rewrite E' in E. injection E as ->.
    rewrite D' in D. injection D as ->. reflexivity.
  Qed.

  Lemma pub_strat o ops a : Forall op_typed ops -> ~ In OpReduce ops -> sorting_mode o -> publishes ne o ops a ->
    let vs := values (window ops) in
    let n := used_levels (o_limit o) (o_levels o) vs in
    let m := length (block (o_limit o) vs (n - 1)) in
    forall i, (i < length (ad_data a))%nat ->
      (supplier n m i < n)%nat /\
      exists x, nth_error (ad_data a) i = Some x /\ rank_is (block (o_limit o) vs (supplier n m i)) i x.
  Proof.
    intros HT HR Hs (r & r' & E & D) vs n m i Hi. apply sorting_ctor in Hs.
    pose proof (run_inv ne Hne o ops r HT E) as W.
    pose proof (SInv_run ne Hne o ops r Hs HT HR E) as SI.
    destruct (detach_sorting ne Hne o _ r a r' Hs W SI D) as [_ H].
    destruct (H i Hi) as [H1 H2]. split; [exact H1|].
    destruct (nth_error (ad_data a) i) as [x|] eqn:Ex; [|apply nth_error_None in Ex; lia].
    exists x. split; auto. apply rank_is_nth_error. auto.
  Qed.

  Lemma pub_strat_rank o ops a k x : Forall op_typed ops -> ~ In OpReduce ops -> sorting_mode o ->
    publishes ne o ops a -> rank_is (ad_data a) k x ->
    let vs := values (window ops) in
    let n := used_levels (o_limit o) (o_levels o) vs in
    (exists s y, (s < n)%nat /\ rank_is (block (o_limit o) vs s) k y /\ y <= x) /\
    (exists s y, (s < n)%nat /\ rank_clipped (block (o_limit o) vs s) k y /\ x <= y).
  Proof.
    intros HT HR Hs P R vs n.
    pose proof (pub_strat o ops a HT HR Hs P) as H. cbv zeta in H. fold vs n in H.
    set (m := length (block (o_limit o) vs (n - 1))) in *.
    destruct (strat_ranks (block (o_limit o) vs) (supplier n m) (ad_data a) k x) as [A B].
    - intros i Hi. destruct (H i Hi) as (_ & y & Ey & Ry). rewrite Ey. symmetry. now apply rank_is_nth_error.
    - exact R.
    - destruct A as (i & y & Hi & Ry & L). destruct B as (i' & y' & Hi' & Ry' & L').
      split; [exists (supplier n m i), y|exists (supplier n m i'), y']; repeat split; auto; apply (H _); auto.
  Qed.

  Lemma pub_merge_bounds o ops a d : Forall op_typed ops -> publishes ne o ops a -> In (OpAddRed d) (window ops) ->
    (ri_min (rd_info d) <> 0 -> ad_min a <= ri_min (rd_info d)) /\
    (ri_max (rd_info d) <> 0 -> ri_max (rd_info d) <= ad_max a).
  Proof.
    intros HT P Hd.
    assert (X : forall z, In z (op_extremes (OpAddRed d)) -> ad_min a <= z <= ad_max a).
    { intros z Hz. assert (Hx : In z (extremes (window ops))) by (apply in_flat_map; eauto).
      destruct (pub_minmax o ops a HT P) as [[_ Mn] [_ Mx]]; [intros E; rewrite E in Hx; destruct Hx|].
      rewrite Forall_forall in *. auto. }
    split; intros Hz; apply X; unfold op_extremes; apply in_app_iff; right; simpl.
    - rewrite (proj2 (Z.eqb_neq _ _) Hz). now left.
    - rewrite (proj2 (Z.eqb_neq _ _) Hz). simpl. destruct (negb _); simpl; auto.
  Qed.

  Lemma pub_avg_const o ops a c : Forall op_typed ops -> publishes ne o ops a ->
    values (window ops) <> [] -> Z.of_nat (length (values (window ops))) < two64 ->
    - 2 ^ 53 <= c <= 2 ^ 53 -> Forall (fun v => v = c) (values (window ops)) -> ad_avg a = c.
  Proof.
    intros HT P Hv Hl Hc HF.
    assert (c <= ad_avg a <= c); [|lia].
    eapply pub_avg; eauto; try lia. eapply Forall_impl; [|exact HF]. simpl. intros; lia.
  Qed.

  Lemma pub_reset o before op after a b : Forall op_typed (before ++ op :: after) -> op = OpDetach \/ op = OpClear ->
    publishes ne o (before ++ op :: after) a -> publishes ne o after b -> same_summary a b.
  Proof.
    intros HT Hop P Q. eapply (same_window_same o _ after); [exact HT| |exact P|exact Q|].
    - apply Forall_app in HT as [_ HT]. exact (Forall_inv_tail HT).
    - now apply window_reset.
  Qed.

  Lemma merge_count o ops d r : Forall op_typed ops -> op_typed (OpAddRed d) ->
    r_run ne (reducer_new o) ops = Ok r ->
    r_total_count (r_add_red d r) = u64 (r_total_count r + ri_count (rd_info d)).
  Proof.
    intros HT Hd E. rewrite (total_count_run o ops r) by auto.
    change (ri_count (rd_info d)) with (op_declared (OpAddRed d)).
    rewrite u64_add_l, <- (declared_one (OpAddRed d)), <- declared_app.
    rewrite (total_count_run o (ops ++ [OpAddRed d])).
    - unfold window. rewrite fold_left_app. reflexivity.
    - apply Forall_app; auto.
    - rewrite run_app, E. reflexivity.
  Qed.
End NE.
