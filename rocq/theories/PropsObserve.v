(** Property C102: what size(), filled(), empty(), ready(), current_time(), next_time() and aggregators_count() say
    (wrtstat/aggregator/reducer.cpp, separator.cpp, basic_aggregator.cpp, aggregator_registry.cpp). *)
From Coq Require Import ZArith List Bool Permutation Lia Arith Ascii.
From Verif Require Import Base SortFacts ModelTypes ModelAvg ModelReducer SpecReducer ReducerProofs ModelSeparator SpecSeparator SepProofs
  ModelAggregator SpecAggregator ModelRegistry SpecRegistry SpecObserve ObserveProofs ObserveReg PropsReducer PropsSeparator PropsAggregator PropsRegistry.
Import ListNotations.
Local Open Scope Z_scope.

(** size(): the values held.  Without explicit reduce() every value is held until limit * levels are. *)
Theorem C102_size : forall ne, nth_element_ok ne -> forall o ops r,
  Forall op_typed ops -> r_run ne (reducer_new o) ops = Ok r ->
  r_size r = held o ops /\
  (~ In OpReduce ops -> r_size r = Nat.min (length (values (window ops))) (o_limit o * o_levels o)).
Proof.
  intros ne Hne o ops r HT E. rewrite (run_size ne Hne o ops r HT E). split; auto. intros NI. now apply held_no_reduce.
Qed.
Print Assumptions C102_size.

(** filled() is true exactly when the next value will not be held. *)
Theorem C102_filled : forall ne, nth_element_ok ne -> forall o ops r,
  Forall op_typed ops -> r_run ne (reducer_new o) ops = Ok r ->
  (r_filled r = true <-> r_size r = (o_limit o * o_levels o)%nat) /\
  (forall v c, r_size (r_add v c r) = if r_filled r then r_size r else S (r_size r)).
Proof.
  intros ne Hne o ops r HT E. pose proof (run_inv ne Hne o ops r HT E) as W. pose proof (filled_inv o _ r W) as FI. split; auto.
  intros v c. change (r_size (r_add v c r)) with (r_size (r_add1 v r)). rewrite (add1_size _ _ _ _ v (w_inv _ _ _ W)).
  pose proof (run_size ne Hne o ops r HT E) as RS. pose proof (held_le o ops) as HL.
  destruct (r_filled r); [pose proof (proj1 FI eq_refl); lia|].
  assert (r_size r <> (o_limit o * o_levels o)%nat) by (intros X; apply FI in X; discriminate). lia.
Qed.
Print Assumptions C102_filled.

(** empty(): nothing was added since the last clear() or detach(), and then detach() returns nothing. *)
Theorem C102_empty : forall ne, nth_element_ok ne -> forall o ops r,
  Forall op_typed ops -> r_run ne (reducer_new o) ops = Ok r ->
  (r_empty r = true <-> window ops = []) /\ (r_empty r = true -> r_size r = 0%nat /\ r_detach ne r = Ok (None, r)).
Proof.
  intros ne Hne o ops r HT E. pose proof (run_inv ne Hne o ops r HT E) as W. rewrite (w_empty _ _ _ W).
  destruct (window ops) as [|x w] eqn:EW.
  - split; [tauto|]. intros _. split.
    + pose proof (size_le _ _ _ _ (w_inv _ _ _ W)) as L. simpl in L. lia.
    + unfold r_detach. rewrite (w_empty _ _ _ W). reflexivity.
  - split; [split; discriminate|discriminate].
Qed.
Print Assumptions C102_empty.

Example C102_witness_reducer : exists r r1 r2, r_run ne_rev (reducer_new ex_o) ex_ops = Ok r /\ r_size r = 8%nat /\ held ex_o ex_ops = 8%nat /\
  r_filled r = true /\ r_size (r_add 5 1 r) = 8%nat /\
  r_run ne_rev (reducer_new ex_o) [OpAddVec [1; 2; 3; 4; 5; 6]] = Ok r1 /\ r_filled r1 = false /\ r_size r1 = 6%nat /\
  r_run ne_rev (reducer_new ex_o) [OpAddVec [1; 2; 3; 4; 5; 6]; OpReduce; OpAdd 9 1] = Ok r2 /\ r_size r2 = 5%nat.
Proof. eexists _, _, _. repeat (split; [vm_compute; reflexivity|]). vm_compute; reflexivity. Qed.

(** Separator: size() records wait, size() calls of pop() return them and the next returns nothing; ready() tells whether there
    are any and empty() that there are none. *)
Theorem C102_queue : forall ne s, exists l s',
  length l = s_size s /\ s_run ne s (repeat SoPop (s_size s)) = Ok (map (fun a => mk_sout None [] (Some a)) l, s') /\
  s_call ne SoPop s' = Ok (mk_sout None [] None, s') /\
  (s_ready s = true <-> (0 < s_size s)%nat) /\ s_empty s = negb (s_ready s).
Proof.
  intros ne s. exists (s_list s). eexists. split; [reflexivity|]. split; [apply sep_pops; reflexivity|]. split; [reflexivity|].
  unfold s_ready, s_empty, s_size. destruct (s_list s); simpl; split; auto; split; intros; auto; try discriminate; lia.
Qed.
Print Assumptions C102_queue.

(** Aggregator: the same for its size(); the data size counts the values of these records, and those not yet in a record of
    this queue. *)
Theorem C102_agg_queue : forall ne g, exists l g',
  length l = g_size g /\ g_run ne g (repeat GoPop (g_size g)) = Ok (map (fun a => mk_sout None [] (Some a)) l, g') /\
  g_call ne GoPop g' = Ok (mk_sout None [] None, g') /\
  g_data_size g = (values_in l + g_data_size g')%nat /\ g_size g' = 0%nat /\
  g_data_size g' = (values_in (s_list (g_sep g)) + r_size (s_red (g_sep g)))%nat.
Proof.
  intros ne g. exists (g_list g). eexists. split; [reflexivity|]. split; [apply agg_pops; reflexivity|]. split; [reflexivity|].
  unfold g_data_size, s_data_size, g_size. simpl. rewrite !fold_values. auto.
Qed.
Print Assumptions C102_agg_queue.

(** Neither ready() nor size() tells whether there is data: values of the open window are not counted (force_pop() returns
    them), and the aggregator's separator may hold records that size() does not count. *)
Theorem C102_nothing_refuted : exists s s' a g g' b,
  s_run ne_rev sx_s0 [SoAdd (SmScalar 103 7 1) 0 0] = Ok ([mk_sout (Some true) [] None], s) /\
  s_empty s = true /\ s_size s = 0%nat /\ s_call ne_rev SoForcePop s = Ok (mk_sout None [] (Some a), s') /\ ad_count a = 1 /\
  g_run ne_rev gx_g0 [GoAdd (SmScalar 103 7 1) 0 0] = Ok ([mk_sout (Some true) [] None], g) /\
  g_size g = 0%nat /\ g_data_size g = 1%nat /\ g_call ne_rev GoForcePop g = Ok (mk_sout None [] (Some b), g') /\ ad_count b = 1.
Proof. eexists _, _, _, _, _, _. do 9 (split; [vm_compute; reflexivity|]). vm_compute; reflexivity. Qed.
Print Assumptions C102_nothing_refuted.

(** current_time() is the time the open window's record will carry; next_time() is one step later; after a call of add() it
    answered false exactly if the sample's time is before current_time(). *)
Theorem C102_times : forall ne s t, s_current_time s = Ok t ->
  s_next_time s = t + s_step s /\
  (forall o s', s_call ne SoPeek s = Ok (o, s') -> s' = s /\ forall a, out_ptr o = Some a -> ad_ts a = t) /\
  (forall o s' a, s_size s = 0%nat -> s_call ne SoForcePop s = Ok (o, s') -> out_ptr o = Some a -> ad_ts a = t /\ s_current_time s' = Ok t).
Proof.
  intros ne s t E. unfold s_current_time in *. pose proof E as E2. apply chk_ok in E2 as [ET _]. split; [unfold s_next_time; lia|]. split.
  - intros o s' C. cbn [s_call] in C. unfold s_get_current in C. destruct (r_get_reduced ne (s_red s)) as [[x|]| |]; cbn [bind] in C; try discriminate.
    + rewrite E in C. cbn [bind] in C. injection C as <- <-. split; auto. intros a H. simpl in H. injection H as <-. reflexivity.
    + injection C as <- <-. split; auto. intros a H. discriminate.
  - intros o s' a SZ C H. cbn [s_call] in C. unfold s_force_pop, s_pop in C. unfold s_size in SZ. destruct (s_list s); [|discriminate].
    destruct (r_detach ne (s_red s)) as [[[x|] r1]| |]; cbn [bind] in C; try discriminate.
    + rewrite E in C. cbn [bind] in C. injection C as <- <-. simpl in H. injection H as <-. split; auto.
    + injection C as <- <-. discriminate.
Qed.
Print Assumptions C102_times.

Theorem C102_times_add : forall ne x c1 c2 s o s', 0 < s_step s -> s_call ne (SoAdd x c1 c2) s = Ok (o, s') ->
  exists t, s_current_time s' = Ok t /\ out_bool o = Some (negb (acc_time (s_step s) (s_res s) c1 (sm_ts x) <? t)).
Proof.
  intros ne x c1 c2 s o s' Hs C.
  assert (G : forall f ts b recs s1, s_put ne c1 c2 ts false f s = Ok (b, recs, s1) ->
    exists t, s_current_time s1 = Ok t /\ b = negb (acc_time (s_step s) (s_res s) c1 ts <? t)).
  { intros f ts b recs s1 E. unfold s_put in E. destruct (get_ts (s_step s) (s_res s) c1 ts) as [t| |] eqn:ET; cbn [bind] in E; try discriminate.
    apply get_ts_ok in ET as [-> _]; auto.
    destruct (s_separate ne c2 _ false false s) as [[[b0 rc] s2]| |]; cbn [bind] in E; try discriminate.
    destruct (chk (s_next s2 - s_step s2)) as [cur| |] eqn:EC; cbn [bind] in E; try discriminate.
    destruct (Z.ltb_spec (acc_time (s_step s) (s_res s) c1 ts) cur) as [L|L]; injection E as <- <- <-;
      (exists cur; split; [exact EC|]); [rewrite (proj2 (Z.ltb_lt _ _) L)|rewrite (proj2 (Z.ltb_ge _ _) L)]; reflexivity. }
  cbn [s_call] in C. destruct x; cbn [sm_ts] in *; unfold s_add, s_add_arr, s_add_list, s_add_red in C;
    match type of C with context[s_put ne c1 c2 ?ts false ?f s] => destruct (s_put ne c1 c2 ts false f s) as [[[b recs] s1]| |] eqn:EP; cbn [bind] in C; try discriminate;
      injection C as <- <-; destruct (G f ts b recs s1 EP) as (t & A & ->) end; exists t; auto.
Qed.
Print Assumptions C102_times_add.

Example C102_witness_times : exists s, s_run ne_rev sx_s0 [SoAdd (SmScalar 103 7 1) 0 0; SoAdd (SmScalar 125 9 1) 0 0] =
    Ok ([mk_sout (Some true) [] None; mk_sout (Some true) [] None], s) /\
  s_current_time s = Ok 120 /\ s_next_time s = 130 /\ s_size s = 1%nat /\ s_ready s = true /\ s_empty s = false.
Proof. eexists. repeat (split; [vm_compute; reflexivity|]). vm_compute; reflexivity. Qed.

(** aggregators_count() is not the number of aggregators.  It is 0 before the first aggregator; from then on it is the greatest
    number of names registered at any one time, plus 1, plus the initial id divided by the id step, rounded up. *)
Theorem C102_count : forall ne o ops outs r, fits o (length ops) -> rg_run ne (rg_new o) ops = Ok (outs, r) ->
  NoDup (names_after ops) /\ (forall n, In n (names_after ops) <-> exists id s g, registered r n id s g) /\
  rg_count r = match peak ops with
               | O => 0%nat
               | S _ => (peak ops + 1 + Z.to_nat ((rgo_init o + rgo_step o - 1) / rgo_step o))%nat
               end.
Proof.
  intros ne o ops outs r F E. destruct (count_exact ne o ops outs r F E) as (A & B & C). split; auto. split; auto. rewrite A.
  unfold nat_count. destruct (peak ops); reflexivity.
Qed.
Print Assumptions C102_count.

(** Ids from 1 on: one aggregator is created, the count is 2; it is deleted, the count stays 2. *)
Definition ox_o : rgopts := mk_rgopts gx_o 0 1 false.
Theorem C102_count_refuted : exists r1 r2,
  rg_run ne_rev (rg_new ox_o) [RgCreate rx_e na 108] = Ok ([RId 1], r1) /\ rg_count r1 = 2%nat /\
  rg_run ne_rev (rg_new ox_o) [RgCreate rx_e na 108; RgDel na] = Ok ([RId 1; RBool false], r2) /\ rg_count r2 = 2%nat /\
  names_after [RgCreate rx_e na 108] = [na] /\ names_after [RgCreate rx_e na 108; RgDel na] = [].
Proof. eexists _, _. repeat (split; [vm_compute; reflexivity|]). vm_compute; reflexivity. Qed.
Print Assumptions C102_count_refuted.

Example C102_witness : fits rx_o (length rx_ops) /\ (exists outs, rg_run ne_rev (rg_new rx_o) rx_ops = Ok (outs, rx_r)) /\
  names_after rx_ops = [nc; nb] /\ peak rx_ops = 2%nat /\ rg_count rx_r = 4%nat.
Proof.
  split; [unfold fits; vm_compute; repeat split; congruence|]. split; [destruct rx_run as (outs & E & _); eauto|].
  repeat (split; [vm_compute; reflexivity|]). vm_compute; reflexivity.
Qed.
