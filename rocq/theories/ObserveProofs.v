(** Proofs about the observers. *)
From Coq Require Import ZArith List Bool Permutation Lia Arith.
From Verif Require Import Base ListFacts SortFacts ModelTypes ModelAvg ModelReducer SpecReducer ReducerProofs PubProofs
  ModelSeparator SpecSeparator SepProofs ModelAggregator SpecAggregator AggProofs ModelRegistry SpecRegistry SpecObserve.
Import ListNotations.
Local Open Scope Z_scope.

(** * Reducer *)
Lemma add1_size o vs es r v : RInv o vs es r -> r_size (r_add1 v r) = Nat.min (r_size r + 1) (o_limit o * o_levels o).
Proof.
  intros I. pose proof (inv_shape _ _ _ _ I) as SH. pose proof (shape_length _ _ _ SH) as SL.
  unfold r_add1, r_size in *. rewrite (inv_opt _ _ _ _ I), ctor_opt_limit, ctor_opt_levels.
  destruct (r_data r) as [|x0 d0] eqn:Ed.
  - simpl. destruct (Nat.eqb_spec (o_levels o) 0) as [H|H].
    + rewrite H. simpl. rewrite Nat.mul_0_r. reflexivity.
    + replace (match o_levels o with O => true | S _ => false end) with false by (destruct (o_levels o); congruence). simpl. destruct (Nat.eqb_spec (o_limit o) 0) as [H0|H0]; simpl.
      * rewrite H0. reflexivity.
      * rewrite andb_false_r. simpl. destruct (o_limit o * o_levels o)%nat eqn:EM; auto. nia.
  - destruct SH as [SH|(init & lst & E & Hi & Hl & Hn)]; [discriminate|]. rewrite E in *. clear E.
    rewrite back_app in *.
    assert (HL : length (init ++ [lst]) = S (length init)) by (rewrite app_length; simpl; lia). rewrite HL in *.
    cbn [orb]. destruct (Nat.eqb_spec (length lst) (o_limit o)) as [E|E].
    + replace (match init ++ [lst] with [] => true | _ :: _ => false end) with false by (now destruct init). cbn [orb].
      destruct (Nat.eqb_spec (S (length init)) (o_levels o)) as [E2|E2]; cbn [orb].
      * simpl r_data. rewrite SL, <- E2. simpl. nia.
      * destruct (Nat.eqb_spec (o_limit o) 0) as [E3|E3]; [lia|].
        assert (LP : forall f, (forall l, length (f l) = length l) -> length (concat (upd_last f (init ++ [lst]))) = length (concat (init ++ [lst]))).
        { intros f Hf. rewrite upd_last_app, !concat_snoc, !app_length, Hf. reflexivity. }
        destruct (rmode_eqb (r_cur r) Sorting); simpl r_data; rewrite concat_snoc, app_length.
        -- cbn [andb negb]. rewrite (LP isort isort_length). rewrite SL. simpl length. nia.
        -- cbn [andb]. rewrite SL. simpl length. nia.
    + replace (match init ++ [lst] with [] => true | _ :: _ => false end) with false by (now destruct init). cbn [orb].
      simpl r_data. rewrite upd_last_app, !concat_snoc, !app_length in *. simpl length in *. nia.
Qed.

Lemma add_all_size o us : forall vs es r, RInv o vs es r ->
  r_size (r_add_all us r) = Nat.min (r_size r + length us) (o_limit o * o_levels o).
Proof.
  induction us as [|u us IH]; intros vs es r I.
  - simpl. pose proof (inv_shape _ _ _ _ I) as SH. pose proof (shape_length _ _ _ SH) as SL. unfold r_size. rewrite SL.
    destruct SH as [->|(init & lst & -> & Hi & Hl & Hn)]; [simpl; lia|].
    rewrite back_app. rewrite app_length in *. simpl in *. nia.
  - change (r_add_all (u :: us) r) with (r_add_all us (r_add1 u r)). rewrite (IH _ _ _ (RInv_add1 _ _ _ _ u I)).
    rewrite (add1_size _ _ _ _ u I). simpl. lia.
Qed.

Section NE.
  Variable ne : nat -> list Z -> list Z.
  Hypothesis Hne : nth_element_ok ne.

  Lemma no_levels_no_data o vs es r : RInv o vs es r -> o_levels o = 0%nat -> r_data r = [].
  Proof.
    intros I H. destruct (inv_shape _ _ _ _ I) as [?|(init & lst & Ed & _ & _ & Hn)]; auto.
    rewrite Ed, app_length, H in Hn. simpl in Hn. lia.
  Qed.
  Lemma size_le o vs es r : RInv o vs es r -> (r_size r <= length vs)%nat.
  Proof. intros I. destruct (inv_sub _ _ _ _ I) as (q & Q). apply Permutation_length in Q. rewrite app_length in Q. unfold r_size. lia. Qed.

  Lemma reduce_size o w r r' : WInv o w r -> r_reduce ne r = Ok r' -> r_size r' = Nat.min (r_size r) (o_limit o).
  Proof.
    intros W E. destruct (reduce_ok ne Hne o w r W) as (r1 & E1 & W1 & L1 & _). rewrite E in E1. injection E1 as <-.
    pose proof (w_inv _ _ _ W) as I. pose proof (w_inv _ _ _ W1) as I1.
    destruct (Nat.eq_dec (o_levels o) 0) as [Z|NZ].
    { unfold r_size. rewrite (no_levels_no_data _ _ _ _ I Z), (no_levels_no_data _ _ _ _ I1 Z). reflexivity. }
    pose proof (inv_first _ _ _ _ I ltac:(lia)) as F. pose proof (inv_first _ _ _ _ I1 ltac:(lia)) as F1.
    assert (S1 : r_size r' = length (hd [] (r_data r'))).
    { unfold r_size. destruct (r_data r') as [|x [|]]; simpl in *; auto; [now rewrite app_nil_r|lia]. }
    rewrite S1, F1. pose proof (size_le _ _ _ _ I) as LE. unfold r_size in *.
    destruct (r_data r) as [|x [|y d]] eqn:Ed; simpl in *.
    - lia.
    - rewrite app_nil_r in *. lia.
    - assert (length x = o_limit o).
      { destruct (inv_shape _ _ _ _ I) as [S|(init & lst & E0 & Hi & _)]; rewrite Ed in *; [discriminate|].
        destruct init as [|i init]; [discriminate|]. simpl in E0. injection E0 as -> _. now inversion Hi. }
      rewrite !app_length in *. lia.
  Qed.

  Lemma step_size o w r op r' : WInv o w r -> r_step ne r op = Ok r' -> r_size r' = held_step o (r_size r) op.
  Proof.
    intros W E. pose proof (w_inv _ _ _ W) as I. destruct op; simpl in *.
    - injection E as <-. unfold r_add. change (r_size (r_account count (if 1 <? count then count - 1 else 0) (r_add1 v r))) with (r_size (r_add1 v r)).
      apply (add1_size _ _ _ _ v I).
    - injection E as <-. exact (add_all_size _ vs _ _ _ I).
    - injection E as <-. exact (add_all_size _ vs _ _ _ I).
    - injection E as <-. exact (add_all_size _ vs _ _ _ I).
    - injection E as <-. transitivity (r_size (r_add_all (rd_data d) r)); [|exact (add_all_size _ (rd_data d) _ _ _ I)].
      unfold r_add_red. destruct (negb _), (negb _); reflexivity.
    - eapply reduce_size; eauto.
    - destruct (r_get_reduced ne r); simpl in E; try discriminate. now injection E as <-.
    - now injection E as <-.
    - pose proof (detach_spec ne Hne o w r W) as D.
      destruct (f64_to_i64 (fst (avg_of (values w)))) eqn:Ez.
      + destruct D as (a' & r1 & Ed & W1 & D0 & _). rewrite Ed in E. simpl in E. injection E as <-. unfold r_size. now rewrite D0.
      + destruct w as [|op w]; [discriminate Ez|]. rewrite D in E by discriminate. discriminate.
      + contradiction.
  Qed.

  Lemma run_size_gen o ops : forall w r r', WInv o w r -> Forall op_typed ops -> r_run ne r ops = Ok r' ->
    r_size r' = fold_left (held_step o) ops (r_size r).
  Proof.
    induction ops as [|op ops IH]; intros w r r' W HT E; simpl in E.
    - now injection E as <-.
    - destruct (r_step ne r op) as [r1| |] eqn:E1; cbn [bind] in E; try discriminate. apply Forall_cons_iff in HT as [T1 T2].
      rewrite (IH _ _ _ (step_inv ne Hne _ _ _ _ _ W T1 E1) T2 E), (step_size _ _ _ _ _ W E1). reflexivity.
  Qed.
  Lemma run_size o ops r : Forall op_typed ops -> r_run ne (reducer_new o) ops = Ok r -> r_size r = held o ops.
  Proof. intros HT E. exact (run_size_gen o ops _ _ _ (WInv_new o) HT E). Qed.

  Lemma held_le o ops : (held o ops <= o_limit o * o_levels o)%nat.
  Proof.
    unfold held. assert (G : forall n, (n <= o_limit o * o_levels o)%nat -> (fold_left (held_step o) ops n <= o_limit o * o_levels o)%nat).
    { induction ops as [|op ops IH]; intros n H; simpl; auto. apply IH. destruct op; simpl; lia. }
    apply G. lia.
  Qed.
  Lemma held_no_reduce o ops : ~ In OpReduce ops -> held o ops = Nat.min (length (values (window ops))) (o_limit o * o_levels o).
  Proof.
    unfold held, window.
    assert (G : forall n w, n = Nat.min (length (values w)) (o_limit o * o_levels o) -> ~ In OpReduce ops ->
      fold_left (held_step o) ops n = Nat.min (length (values (fold_left window_step ops w))) (o_limit o * o_levels o)).
    { induction ops as [|op ops IH]; intros n w H NI; simpl; auto. apply IH; [|intros X; apply NI; now right]. subst n.
      destruct op; try (cbn [held_step window_step]; rewrite values_app, app_length; match goal with |- context[values [?x]] => replace (values [x]) with (op_values x) by (unfold values; simpl; now rewrite ?app_nil_r) end; lia).
      - exfalso. apply NI. now left.
      - reflexivity.
      - reflexivity.
      - reflexivity. }
    intros NI. apply G; auto.
  Qed.

  Lemma filled_inv o w r : WInv o w r -> r_filled r = true <-> r_size r = (o_limit o * o_levels o)%nat.
  Proof.
    intros W. pose proof (w_inv _ _ _ W) as I. pose proof (inv_shape _ _ _ _ I) as SH. pose proof (shape_length _ _ _ SH) as SL.
    unfold r_filled, r_size in *. rewrite (inv_opt _ _ _ _ I), ctor_opt_limit, ctor_opt_levels, SL.
    destruct (Nat.eqb_spec (o_levels o) 0) as [H|H]; cbn [orb].
    { rewrite (no_levels_no_data _ _ _ _ I H), H. simpl. rewrite Nat.mul_0_r. tauto. }
    destruct (Nat.eqb_spec (o_limit o) 0) as [H0|H0]; cbn [orb].
    { destruct SH as [->|(init & lst & -> & Hi & Hl & Hn)]; [rewrite H0; simpl; tauto|lia]. }
    destruct SH as [->|(init & lst & -> & Hi & Hl & Hn)].
    { simpl. split; [discriminate|nia]. }
    assert (EQ : match init ++ [lst] with [] => false | y :: t => (length (y :: t) =? o_levels o)%nat && (length (back (y :: t)) =? o_limit o)%nat end
      = ((length init + 1 =? o_levels o)%nat && (length lst =? o_limit o)%nat)).
    { pose proof (back_app init lst) as B. assert (L : length (init ++ [lst]) = (length init + 1)%nat) by (rewrite app_length; reflexivity).
      transitivity ((length (init ++ [lst]) =? o_levels o)%nat && (length (back (init ++ [lst])) =? o_limit o)%nat); [now destruct init|now rewrite L, B]. }
    rewrite EQ. rewrite back_app, app_length in *. simpl length in *.
    rewrite andb_true_iff, !Nat.eqb_eq. split; nia.
  Qed.
End NE.

(** * Separator and aggregator *)
Section Queues.
  Variable ne : nat -> list Z -> list Z.
  Lemma sep_pops : forall l s, s_list s = l ->
    s_run ne s (repeat SoPop (length l)) = Ok (map (fun a => mk_sout None [] (Some a)) l, mk_sep (s_red s) (s_step s) (s_next s) (s_res s) []).
  Proof.
    induction l as [|a l IH]; intros s E.
    - simpl. destruct s; simpl in *. now rewrite E.
    - cbn [length repeat s_run s_call]. unfold s_pop. rewrite E. cbn [bind].
      rewrite (IH (mk_sep (s_red s) (s_step s) (s_next s) (s_res s) l) eq_refl). reflexivity.
  Qed.
  Lemma agg_pops : forall l g, g_list g = l ->
    g_run ne g (repeat GoPop (length l)) = Ok (map (fun a => mk_sout None [] (Some a)) l, mk_agg (g_sep g) (g_out g) (g_enabled g) [] (g_id g)).
  Proof.
    induction l as [|a l IH]; intros g E.
    - simpl. destruct g; simpl in *. now rewrite E.
    - cbn [length repeat g_run g_call]. unfold g_pop. rewrite E. cbn [bind].
      rewrite (IH (mk_agg (g_sep g) (g_out g) (g_enabled g) l (g_id g)) eq_refl). reflexivity.
  Qed.
  Lemma fold_values l n : fold_right (fun a k => length (ad_data a) + k)%nat n l = (values_in l + n)%nat.
  Proof. unfold values_in. induction l; simpl; auto. rewrite IHl. lia. Qed.
End Queues.
