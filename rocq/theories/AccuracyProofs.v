(** The values a record keeps, and its percentiles, against the measurements of its window. *)
From Coq Require Import ZArith List Bool Permutation Lia Arith Sorted.
From Verif Require Import Base SortFacts ModelTypes ModelAvg ModelReducer SpecReducer ListFacts LoopProofs ReducerProofs StratProofs PubProofs
  ModelSeparator SpecSeparator ModelAggregator SpecAggregator SpecAccuracy.
Import ListNotations.

(** Without an explicit reduce() the levels hold the first limit*levels values of the window, in whatever mode. *)
Definition PInv (o : ropts) (vs : list Z) (r : reducer) : Prop :=
  r_opt r = ctor_opt o /\ shape (o_limit o) (o_levels o) (r_data r) /\
  Permutation (concat (r_data r)) (firstn (o_limit o * o_levels o) vs).

Lemma perm_all k (l vs : list Z) : Permutation l (firstn k vs) -> length l < k -> firstn k vs = vs /\ length vs < k.
Proof.
  intros E H. apply Permutation_length in E. rewrite firstn_length in E. split; [apply firstn_all2|]; lia.
Qed.

Lemma PInv_add1 o vs r v : PInv o vs r -> PInv o (vs ++ [v]) (r_add1 v r).
Proof.
  intros (Ho & HS & P). unfold PInv, r_add1. cbv zeta. rewrite Ho, ctor_opt_limit, ctor_opt_levels.
  destruct (match r_data r with [] => true | _ => false end || (length (back (r_data r)) =? o_limit o)) eqn:E1.
  - destruct ((length (r_data r) =? o_levels o) || (o_limit o =? 0)) eqn:E2; simpl.
    + split; [exact Ho || auto|]. split; [exact HS|].
      assert (F : length (firstn (o_limit o * o_levels o) vs) = o_limit o * o_levels o).
      { rewrite <- (Permutation_length P). apply orb_true_iff in E2. rewrite !Nat.eqb_eq in E2.
        destruct HS as [Hd|(init & lst & Hd & Hi & Hl & Hn)]; rewrite Hd in *.
        - simpl in *. destruct E2 as [E2|E2]; [rewrite <- E2|rewrite E2]; lia.
        - destruct E2 as [E2|E2]; [|lia]. rewrite app_length in E2. simpl in E2.
          apply orb_true_iff in E1. destruct E1 as [E1|E1]; [destruct init; discriminate|].
          apply Nat.eqb_eq in E1. rewrite back_app in E1.
          rewrite concat_snoc, app_length, (concat_length_const _ (o_limit o)) by auto. nia. }
      rewrite firstn_length in F. rewrite firstn_app.
      replace (o_limit o * o_levels o - length vs) with 0 by lia. simpl. now rewrite app_nil_r.
    + apply orb_false_iff in E2 as [E2 E3]. apply Nat.eqb_neq in E2, E3.
      set (d1 := if rmode_eqb (r_cur r) Sorting && negb match r_data r with [] => true | _ => false end then upd_last isort (r_data r) else r_data r).
      assert (P1 : Permutation (concat d1) (concat (r_data r))).
      { unfold d1. destruct (_ && _); [apply upd_last_isort_perm|reflexivity]. }
      assert (S1 : shape (o_limit o) (o_levels o) d1).
      { unfold d1. destruct (_ && _); auto. apply upd_last_shape; auto using isort_length. }
      assert (L1 : length d1 = length (r_data r)).
      { unfold d1. destruct (_ && _); auto. apply upd_last_length. }
      assert (B1 : length (back d1) = length (back (r_data r))).
      { unfold d1. destruct (_ && _); auto. destruct (list_snoc (r_data r)) as [->|(a & x & ->)]; auto.
        rewrite upd_last_app, !back_app. apply isort_length. }
      assert (E4 : d1 = [] \/ length (back d1) = o_limit o).
      { rewrite B1. destruct (r_data r) as [|x d]; [left; destruct d1; [auto|discriminate]|]. right. simpl in E1. apply Nat.eqb_eq in E1. exact E1. }
      clearbody d1. split; [auto|].
      assert (F : Forall (fun v => length v = o_limit o) d1 /\ length d1 < o_levels o).
      { destruct S1 as [->|(init & lst & -> & Hi & Hl & Hn)]; [simpl in *; split; [constructor|lia]|].
        split; [|lia]. apply Forall_app; split; auto. constructor; auto.
        destruct E4 as [E4|E4]; [destruct init; discriminate|]. now rewrite back_app in E4. }
      destruct F as [F1 F2]. split.
      * right. exists d1, [v]. rewrite app_length. simpl. repeat split; auto; lia.
      * assert (HL : length (concat (r_data r)) < o_limit o * o_levels o).
        { rewrite <- (Permutation_length P1), (concat_length_const _ (o_limit o)) by auto. nia. }
        destruct (perm_all _ _ _ P HL) as [EV LV]. rewrite EV in P.
        rewrite concat_snoc, firstn_all2 by (rewrite app_length; simpl; lia).
        apply Permutation_app_tail. now rewrite P1.
  - simpl. apply orb_false_iff in E1 as [E0 E1]. apply Nat.eqb_neq in E1. split; [auto|].
    destruct HS as [Hd|(init & lst & Hd & Hi & Hl & Hn)]; rewrite Hd in *; [discriminate|].
    rewrite back_app in E1. rewrite upd_last_app. split.
    + right. exists init, (lst ++ [v]). rewrite !app_length in *. simpl in *. repeat split; auto; lia.
    + assert (HL : length (concat (init ++ [lst])) < o_limit o * o_levels o).
      { rewrite concat_snoc, app_length, (concat_length_const _ (o_limit o)) by auto.
        rewrite app_length in Hn. simpl in Hn. nia. }
      destruct (perm_all _ _ _ P HL) as [EV LV]. rewrite EV in P.
      rewrite firstn_all2 by (rewrite app_length; simpl; lia).
      rewrite concat_snoc, app_assoc, <- concat_snoc. now apply Permutation_app_tail.
Qed.

Lemma PInv_add_all o us : forall vs r, PInv o vs r -> PInv o (vs ++ us) (r_add_all us r).
Proof.
  induction us as [|u us IH]; intros vs r HS; simpl; [now rewrite app_nil_r|].
  apply (PInv_add1 o vs r u) in HS. apply IH in HS. now rewrite <- app_assoc in HS.
Qed.
Lemma PInv_ext o vs r r' : r_opt r' = r_opt r -> r_data r' = r_data r -> PInv o vs r -> PInv o vs r'.
Proof. intros E2 E3 (A & B & C). unfold PInv. rewrite E2, E3. auto. Qed.
Lemma PInv_fresh o w r : WInv o w r -> r_data r = [] -> PInv o [] r.
Proof.
  intros W Hd. destruct W as [I _ _ _]. split; [exact (inv_opt _ _ _ _ I)|]. rewrite Hd. split; [now left|]. now rewrite firstn_nil.
Qed.

Section S.
  Variable ne : nat -> list Z -> list Z.
  Hypothesis Hne : nth_element_ok ne.

  Lemma PInv_step o w r op r' : op <> OpReduce -> WInv o w r ->
    PInv o (values w) r -> r_step ne r op = Ok r' -> PInv o (values (window_step w op)) r'.
  Proof.
    intros Hop W HS E. destruct op; simpl in E; try congruence.
    - injection E as <-. simpl. rewrite values_app. unfold values at 2. simpl.
      eapply PInv_ext; [| |apply PInv_add1; exact HS]; reflexivity.
    - injection E as <-. simpl. rewrite values_app. unfold values at 2. simpl. rewrite app_nil_r.
      eapply PInv_ext; [| |apply PInv_add_all; exact HS]; reflexivity.
    - injection E as <-. simpl. rewrite values_app. unfold values at 2. simpl. rewrite app_nil_r.
      eapply PInv_ext; [| |apply PInv_add_all; exact HS]; reflexivity.
    - injection E as <-. simpl. rewrite values_app. unfold values at 2. simpl. rewrite app_nil_r.
      eapply PInv_ext; [| |apply PInv_add_all; exact HS]; reflexivity.
    - injection E as <-. simpl. rewrite values_app. unfold values at 2. simpl. rewrite app_nil_r.
      eapply PInv_ext; [| |apply PInv_add_all; exact HS]; unfold r_add_red;
        destruct (negb _), (negb _); reflexivity.
    - destruct (r_get_reduced ne r); simpl in E; try discriminate. injection E as <-; auto.
    - injection E as <-. eapply PInv_fresh; eauto using WInv_clear.
    - pose proof (detach_spec ne Hne o w r W) as D.
      destruct (f64_to_i64 (fst (avg_of (values w)))) eqn:Ez.
      + destruct D as (a' & r1 & Ed & W1 & Er & _). rewrite Ed in E. simpl in E. injection E as <-.
        eapply PInv_fresh; eauto.
      + destruct w as [|op w]; [discriminate Ez|]. rewrite D in E by discriminate. discriminate.
      + contradiction.
  Qed.
  Lemma PInv_run_gen o ops : forall w r r', WInv o w r -> PInv o (values w) r ->
    Forall op_typed ops -> ~ In OpReduce ops ->
    r_run ne r ops = Ok r' -> PInv o (values (fold_left window_step ops w)) r'.
  Proof.
    induction ops as [|op ops IH]; intros w r r' W HS HT HI E; simpl in *.
    - injection E as <-. auto.
    - destruct (r_step ne r op) as [r1| |] eqn:E1; simpl in E; try discriminate.
      eapply IH; [| |exact (Forall_inv_tail HT)| |eauto].
      + eapply step_inv; eauto. exact (Forall_inv HT).
      + eapply PInv_step; eauto.
      + auto.
  Qed.
  Lemma PInv_run o ops r : Forall op_typed ops -> ~ In OpReduce ops ->
    r_run ne (reducer_new o) ops = Ok r -> PInv o (values (window ops)) r.
  Proof.
    intros. unfold window. eapply PInv_run_gen; eauto using WInv_new.
    eapply PInv_fresh; eauto using WInv_new.
  Qed.

  Lemma detach_prefix o vs r a r' : PInv o vs r -> r_detach ne r = Ok (Some a, r') ->
    submultiset (ad_data a) (firstn (o_limit o * o_levels o) vs).
  Proof.
    intros (Ho & HS & P) D. unfold r_detach in D. destruct (r_empty r); [discriminate|].
    destruct (r_reduce ne r) as [r1| |] eqn:E; cbn [bind] in D; try discriminate.
    destruct (f64_to_i64 (r_avg r1)); cbn [bind] in D; try discriminate. injection D as <- _. cbn [ad_data].
    assert (SUB : submultiset (match r_data r1 with [] => [] | v :: _ => v end) (concat (r_data r))).
    { unfold r_reduce in E. destruct (r_data r) as [|x0 d] eqn:Ed.
      { injection E as <-. rewrite Ed. exists []. reflexivity. }
      rewrite <- Ed in *. rewrite Ho, ctor_opt_limit in E.
      set (d0 := if rmode_eqb (r_cur r) Sorting then upd_last isort (r_data r) else r_data r) in *.
      assert (P0 : Permutation (concat d0) (concat (r_data r))).
      { unfold d0. destruct (rmode_eqb _ _); [apply upd_last_isort_perm|reflexivity]. }
      assert (S0 : shape (o_limit o) (o_levels o) d0).
      { unfold d0. destruct (rmode_eqb _ _); auto. apply upd_last_shape; auto using isort_length. }
      clearbody d0. cbv zeta in E.
      destruct (shape_cases _ _ _ S0) as [->|[(v & -> & _)|(v0 & A & lst & E0 & Hv0 & HA & Hl & Hn)]].
      - apply Permutation_length in P0. simpl in P0. destruct HS as [Q|(init & lst & Q & _ & Hl & _)]; [congruence|].
        rewrite Q, concat_snoc, app_length in P0. lia.
      - simpl in E. injection E as <-. cbn [r_data]. exists []. rewrite app_nil_r. simpl in P0. now rewrite app_nil_r in P0.
      - destruct (Nat.eqb_spec (length d0) 1) as [Q|_]; [rewrite E0 in Q; simpl in Q; rewrite app_length in Q; simpl in Q; lia|].
        destruct (reduce_loop_entry ne Hne (r_cur r) (o_limit o) v0 A lst Hv0 HA Hl) as (v0' & oth & EL & LV & q & SV).
        rewrite <- E0 in EL, SV. rewrite EL in E. cbn [bind] in E. injection E as <-. cbn [r_data firstn].
        exists q. now rewrite SV. }
    destruct SUB as [q Q]. exists q. now rewrite Q.
  Qed.

  Lemma pub_prefix o ops a : Forall op_typed ops -> ~ In OpReduce ops -> publishes ne o ops a ->
    submultiset (ad_data a) (firstn (o_limit o * o_levels o) (values (window ops))).
  Proof.
    intros HT HR (r & r' & E & D). exact (detach_prefix o _ r a r' (PInv_run o ops r HT HR E) D).
  Qed.

  Lemma list_ext (l m : list Z) : (forall i, nth_error l i = nth_error m i) -> l = m.
  Proof.
    revert m. induction l as [|x l IH]; intros [|y m] H; auto; try (specialize (H 0); discriminate).
    pose proof (H 0) as H0. injection H0 as <-. f_equal. apply IH. intros i. exact (H (S i)).
  Qed.

  (** Ranks and counts. *)
  Lemma filter_perm (f : Z -> bool) l m : Permutation l m -> length (filter f l) = length (filter f m).
  Proof. induction 1; simpl; auto; [destruct (f x); simpl; auto|destruct (f x), (f y); simpl; auto|congruence]. Qed.
  Lemma filter_all (f : Z -> bool) l : Forall (fun y => f y = true) l -> length (filter f l) = length l.
  Proof. induction 1 as [|y l H _ IH]; simpl; auto. rewrite H. simpl. auto. Qed.
  Lemma rank_counts l m k x : rank_is l k x -> submultiset l m -> k + 1 <= below x m /\ length l - k <= above x m.
  Proof.
    intros (a & b & P & Hk & Ha & Hb) [q Q]. unfold below, above. rewrite <- !(filter_perm _ _ _ Q), !filter_app, !app_length.
    rewrite !(filter_perm _ _ _ P), !filter_app, !app_length. simpl. rewrite Z.leb_refl. simpl.
    rewrite (filter_all (fun v => (v <=? x)%Z) a), (filter_all (fun v => (x <=? v)%Z) b).
    - rewrite (Permutation_length P), app_length. simpl. lia.
    - eapply Forall_impl; [|exact Hb]. intros y Hy. apply Z.leb_le. exact Hy.
    - eapply Forall_impl; [|exact Ha]. intros y Hy. apply Z.leb_le. exact Hy.
  Qed.

  (** A delivered record. *)
  Definition from_prefix (o : ropts) (g : list rop) (d : adata) : Prop :=
    submultiset (ad_data d) (firstn (o_limit o * o_levels o) (values g)).

  Lemma finished_submultiset out a d : finished out a d -> submultiset (ad_data d) (ad_data a).
  Proof.
    intros (_ & (v & P & S) & _).
    assert (SS : submultiset (ad_data d) v).
    { clear P. induction S as [|x l m S IH|x l m S IH].
      - exists []. reflexivity.
      - destruct IH as [q Q]. exists q. simpl. now constructor.
      - destruct IH as [q Q]. exists (x :: q). rewrite <- Permutation_middle. now constructor. }
    destruct SS as [q Q]. exists q. now rewrite Q.
  Qed.
  Lemma delivery_prefix o out w g d : delivery_of ne o out w g d -> from_prefix o g d.
  Proof.
    intros (a & (ops & a0 & HT & [HW HR] & HP & ->) & F). destruct (finished_submultiset _ _ _ F) as [q Q].
    destruct (pub_prefix o ops a0 HT HR HP) as [q2 Q2]. rewrite HW in Q2. exists (q ++ q2). rewrite app_assoc, Q. exact Q2.
  Qed.

  (** The percentiles as ranks in what was kept. *)
  Lemma delivery_kept o out w g d : delivery_of ne o out w g d -> (1 <= o_levels o) -> (1 <= o_limit o) -> values g <> [] ->
    exists ops a0, Forall op_typed ops /\ window ops = g /\ ~ In OpReduce ops /\ publishes ne o ops a0 /\
      length (ad_data a0) = kept_size o (values g) /\
      percentiles_of (ad_data a0) (ad_perc d) /\ perc100_of (ad_data a0) (ad_perc d).
  Proof.
    intros (a & (ops & a0 & HT & [HW HR] & HP & ->) & F) Hlv Hlm Hv. exists ops, a0. repeat (split; [assumption|]).
    assert (L : length (ad_data a0) = kept_size o (values g)).
    { rewrite (pub_size ne Hne o ops a0 HT HP), HW. destruct (Nat.eqb_spec (o_levels o) 0); [lia|reflexivity]. }
    split; [exact L|]. destruct F as (_ & _ & _ & F4 & _). apply F4. change (ad_data (ad_set_ts w a0)) with (ad_data a0).
    intros E. rewrite E in L. unfold kept_size in L. destruct (values g); [congruence|]. cbn [length] in L. lia.
  Qed.

  Lemma percents_rank v p P x : percentiles_of v p -> In (P, x) (percents p) -> rank_is v (length v * P / 100) x.
  Proof.
    intros (H1 & H2 & H3 & H4) [E|[E|[E|[E|[]]]]]; injection E as <- <-; assumption.
  Qed.

  Lemma delivery_exact o out w g d : delivery_of ne o out w g d -> 1 <= o_levels o -> length (values g) <= o_limit o -> values g <> [] ->
    percentiles_of (values g) (ad_perc d) /\ perc100_of (values g) (ad_perc d).
  Proof.
    intros D Hlv Hlm Hv.
    assert (1 <= o_limit o) by (destruct (values g); [congruence|simpl in *; lia]).
    destruct (delivery_kept o out w g d D Hlv H Hv) as (ops & a0 & HT & HW & HR & HP & HL & (P1 & P2 & P3 & P4) & Q1 & Q2 & Q3). subst g.
    destruct (pub_lossless ne Hne o ops a0 HT HP Hlv Hlm) as [PM _]. pose proof (Permutation_length PM) as LM. rewrite LM in *. split.
    - repeat split; eapply rank_is_perm; eauto.
    - split; [exact Q1|]. split; [eapply Permutation_in; eauto|]. intros H200. destruct (Q3 H200) as [M1 M2].
      split; [eapply Permutation_in; eauto|]. eapply Permutation_Forall; eauto.
  Qed.

  Lemma delivery_bracket o out w g d : delivery_of ne o out w g d -> 1 <= o_levels o -> 1 <= o_limit o -> values g <> [] ->
    forall P x, In (P, x) (percents (ad_perc d)) ->
      let vs := firstn (o_limit o * o_levels o) (values g) in
      let n := kept_size o (values g) in
      n * P / 100 + 1 <= below x vs /\ n - n * P / 100 <= above x vs.
  Proof.
    intros D Hlv Hlm Hv P x HI. cbv zeta.
    destruct (delivery_kept o out w g d D Hlv Hlm Hv) as (ops & a0 & HT & HW & HR & HP & HL & PC & _). subst g.
    rewrite <- HL. apply rank_counts; [exact (percents_rank _ _ _ _ PC HI)|]. exact (pub_prefix o ops a0 HT HR HP).
  Qed.

  Lemma delivery_enclosed o out w g d : delivery_of ne o out w g d -> 1 <= o_levels o -> 1 <= o_limit o -> values g <> [] -> sorting_mode o ->
    forall P x, In (P, x) (percents (ad_perc d)) ->
      let n := used_levels (o_limit o) (o_levels o) (values g) in
      let k := kept_size o (values g) * P / 100 in
      (exists s y, s < n /\ rank_is (block (o_limit o) (values g) s) k y /\ (y <= x)%Z) /\
      (exists s y, s < n /\ rank_clipped (block (o_limit o) (values g) s) k y /\ (x <= y)%Z).
  Proof.
    intros D Hlv Hlm Hv Hs P x HI. cbv zeta.
    destruct (delivery_kept o out w g d D Hlv Hlm Hv) as (ops & a0 & HT & HW & HR & HP & HL & PC & _). subst g.
    rewrite <- HL. exact (pub_strat_rank ne Hne o ops a0 _ x HT HR Hs HP (percents_rank _ _ _ _ PC HI)).
  Qed.

  (** Two windows with the same first limit*levels values. *)
  Lemma used_same limit levels (v1 v2 : list Z) : 1 <= limit -> firstn (limit * levels) v1 = firstn (limit * levels) v2 ->
    used_levels limit levels v1 = used_levels limit levels v2 /\ Nat.min (length v1) limit = Nat.min (length v2) limit \/ levels = 0.
  Proof.
    intros Hl E. destruct (Nat.eq_dec levels 0) as [->|Hz]; [now right|left].
    apply (f_equal (@length Z)) in E. rewrite !firstn_length in E.
    destruct (le_lt_dec (limit * levels) (length v1)) as [L1|L1], (le_lt_dec (limit * levels) (length v2)) as [L2|L2]; try lia.
    - unfold used_levels. split; [|nia].
      rewrite !Nat.min_l; auto; apply Nat.div_le_lower_bound; nia.
    - replace (length v2) with (length v1) by lia. unfold used_levels. replace (length v2) with (length v1) by lia. auto.
  Qed.
  Lemma block_same limit levels (v1 v2 : list Z) j : firstn (limit * levels) v1 = firstn (limit * levels) v2 -> j < levels ->
    block limit v1 j = block limit v2 j.
  Proof.
    intros E Hj. unfold block.
    assert (H : forall v : list Z, firstn limit (skipn (j * limit) v) = firstn limit (skipn (j * limit) (firstn (limit * levels) v))).
    { intros v. rewrite skipn_firstn_comm, firstn_firstn. f_equal. nia. }
    rewrite (H v1), (H v2), E. reflexivity.
  Qed.
  Lemma pub_same o ops1 ops2 a1 a2 : Forall op_typed ops1 -> Forall op_typed ops2 -> ~ In OpReduce ops1 -> ~ In OpReduce ops2 ->
    sorting_mode o -> 1 <= o_limit o -> publishes ne o ops1 a1 -> publishes ne o ops2 a2 ->
    firstn (o_limit o * o_levels o) (values (window ops1)) = firstn (o_limit o * o_levels o) (values (window ops2)) ->
    ad_data a1 = ad_data a2.
  Proof.
    intros T1 T2 R1 R2 Hs Hl P1 P2 E.
    pose proof (pub_size ne Hne o ops1 a1 T1 P1) as L1. pose proof (pub_size ne Hne o ops2 a2 T2 P2) as L2.
    pose proof (pub_strat ne Hne o ops1 a1 T1 R1 Hs P1) as S1. pose proof (pub_strat ne Hne o ops2 a2 T2 R2 Hs P2) as S2.
    cbv zeta in S1, S2. set (v1 := values (window ops1)) in *. set (v2 := values (window ops2)) in *.
    destruct (used_same (o_limit o) (o_levels o) v1 v2 Hl E) as [[EU EM]|Hz].
    - assert (LL : length (ad_data a1) = length (ad_data a2)) by (rewrite L1, L2, EM; reflexivity).
      rewrite EU in S1. set (n := used_levels (o_limit o) (o_levels o) v2) in *.
      assert (EB : n = 0 \/ block (o_limit o) v1 (n - 1) = block (o_limit o) v2 (n - 1)).
      { destruct (Nat.eq_dec n 0); [now left|right]. apply (block_same _ (o_levels o)); auto. unfold n, used_levels in *. lia. }
      apply list_ext. intros i. destruct (le_lt_dec (length (ad_data a1)) i) as [Hi|Hi].
      { rewrite !(proj2 (nth_error_None _ _)); auto; lia. }
      destruct (S1 i Hi) as (A1 & x1 & B1 & C1). destruct (S2 i ltac:(lia)) as (A2 & x2 & B2 & C2).
      destruct EB as [EB|EB]; [lia|]. rewrite EB in C1. rewrite B1, B2. f_equal.
      rewrite (block_same _ (o_levels o) v1 v2 _ E) in C1; [exact (rank_is_fun _ _ _ _ C1 C2)|].
      unfold n, used_levels in A2. unfold n, used_levels. lia.
    - rewrite Hz in L1, L2. simpl in L1, L2. destruct (ad_data a1), (ad_data a2); auto; discriminate.
  Qed.
  Lemma delivery_late o out w1 w2 g1 g2 d1 d2 : delivery_of ne o out w1 g1 d1 -> delivery_of ne o out w2 g2 d2 ->
    1 <= o_levels o -> 1 <= o_limit o -> values g1 <> [] -> values g2 <> [] -> sorting_mode o ->
    firstn (o_limit o * o_levels o) (values g1) = firstn (o_limit o * o_levels o) (values g2) ->
    percents (ad_perc d1) = percents (ad_perc d2).
  Proof.
    intros D1 D2 Hlv Hlm N1 N2 Hs E.
    destruct (delivery_kept o out w1 g1 d1 D1 Hlv Hlm N1) as (ops1 & a1 & T1 & W1 & R1 & P1 & L1 & (A1 & B1 & C1 & E1) & _).
    destruct (delivery_kept o out w2 g2 d2 D2 Hlv Hlm N2) as (ops2 & a2 & T2 & W2 & R2 & P2 & L2 & (A2 & B2 & C2 & E2) & _). subst g1 g2.
    rewrite (pub_same o ops1 ops2 a1 a2 T1 T2 R1 R2 Hs Hlm P1 P2 E) in *. unfold percents.
    rewrite (rank_is_fun _ _ _ _ A1 A2), (rank_is_fun _ _ _ _ B1 B2), (rank_is_fun _ _ _ _ C1 C2), (rank_is_fun _ _ _ _ E1 E2). reflexivity.
  Qed.
End S.
