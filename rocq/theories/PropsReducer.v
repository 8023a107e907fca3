(** Properties C01-C13: one reducer object (wrtstat/aggregator/reducer.cpp).
    [ops] is an arbitrary sequence of public calls on a newly constructed reducer with arbitrary options [o];
    [ne] is an arbitrary conforming std::nth_element; [publishes ne o ops a] says that detach(), called after
    [ops], returns the record [a]; [window ops] are the add calls since the last clear()/detach(). *)
From Coq Require Import ZArith List Bool Permutation Lia.
From Verif Require Import Base SortFacts ModelTypes ModelAvg ModelReducer SpecReducer ReducerProofs PubProofs.
Import ListNotations.
Local Open Scope Z_scope.

(** A history used below to show that hypotheses are satisfiable: several add overloads, an interposed reduce(),
    a peek, a detach(), more values than the two levels can hold, and a merged record. *)
Definition ex_o : ropts := mk_ropts 4 2 Nth Sorting.
Definition ex_ops : list rop :=
  [OpAdd 5 3; OpAddVec [1; 2; 3; 4; 9; 8; 7]; OpDetach;
   OpAdd 5 3; OpAddVec [1; 2; 3; 4; 9; 8; 7]; OpReduce; OpAddArr [10; -3] 5; OpPeek;
   OpAddRed (mk_rdata (mk_rinfo 0 7 5 (-20) 20 4) [6; 6]); OpAddList [11; 12; 13]].

Ltac pub := eexists _, _; split; [vm_compute; reflexivity|vm_compute; reflexivity].
Ltac typed := repeat (constructor; try (unfold op_typed, op_extremes, i64, i64_min, i64_max, is_u64, two64, val_safe,
  op_safe, op_honest; simpl; lia)); unfold i64, i64_min, i64_max, is_u64, two64, val_safe; simpl; try lia.
Example ex_typed : Forall op_typed ex_ops. Proof. typed. Qed.
Example ex_safe : Forall op_safe ex_ops. Proof. typed. Qed.
Example ex_honest : Forall op_honest (window ex_ops). Proof. vm_compute. repeat constructor; discriminate. Qed.
Example ex_publishes : exists a, publishes ne_rev ex_o ex_ops a /\ ad_data a <> [].
Proof.
  eexists. split; [pub|]. vm_compute. discriminate.
Qed.
Example ex_window : length (window ex_ops) = 5%nat /\ length (values (window ex_ops)) = 15%nat.
Proof. vm_compute. auto. Qed.

(** C01 *)
Theorem C01_count_conserved : forall ne, nth_element_ok ne -> forall o ops a,
  Forall op_typed ops -> publishes ne o ops a -> ad_count a = u64 (declared (window ops)).
Proof. exact pub_count. Qed.
Print Assumptions C01_count_conserved.

Theorem C01_total_count : forall ne, nth_element_ok ne -> forall o ops r,
  Forall op_typed ops -> r_run ne (reducer_new o) ops = Ok r -> r_total_count r = u64 (declared (window ops)).
Proof. exact total_count_run. Qed.
Print Assumptions C01_total_count.

(** A record is published exactly when something was added. *)
Theorem C01_nothing_added : forall ne, nth_element_ok ne -> forall o ops r,
  Forall op_typed ops -> r_run ne (reducer_new o) ops = Ok r -> window ops = [] -> r_detach ne r = Ok (None, r).
Proof. exact detach_none. Qed.
Print Assumptions C01_nothing_added.

Example C01_witness : exists a, publishes ne_rev ex_o ex_ops a /\ ad_count a = 25.
Proof. eexists. split; [pub|]. reflexivity. Qed.

(** C02 *)
Theorem C02_count_split : forall ne, nth_element_ok ne -> forall o ops a,
  Forall op_typed ops -> Forall op_honest (window ops) -> publishes ne o ops a ->
  ad_count a = u64 (ad_lossy a + Z.of_nat (length (ad_data a))).
Proof. exact pub_split. Qed.
Print Assumptions C02_count_split.

(** Without honesty: lossy + size exceeds the declared count by the undeclared values. *)
Theorem C02_count_split_general : forall ne, nth_element_ok ne -> forall o ops a,
  Forall op_typed ops -> publishes ne o ops a ->
  u64 (ad_lossy a + Z.of_nat (length (ad_data a))) = u64 (declared (window ops) + excess (window ops)) /\
  0 <= ad_lossy a < two64.
Proof. exact pub_balance. Qed.
Print Assumptions C02_count_split_general.

Theorem C02_lossy_count : forall ne, nth_element_ok ne -> forall o ops r a r',
  Forall op_typed ops -> r_run ne (reducer_new o) ops = Ok r -> r_detach ne r = Ok (Some a, r') ->
  r_lossy_count r = ad_lossy a.
Proof. exact lossy_same. Qed.
Print Assumptions C02_lossy_count.

Example C02_witness : exists a, publishes ne_rev ex_o ex_ops a /\ ad_lossy a = 21 /\ length (ad_data a) = 4%nat.
Proof. eexists. split; [pub|]. split; reflexivity. Qed.

(** C03 *)
Theorem C03_data_submultiset : forall ne, nth_element_ok ne -> forall o ops a,
  Forall op_typed ops -> publishes ne o ops a -> submultiset (ad_data a) (values (window ops)).
Proof. exact pub_sub. Qed.
Print Assumptions C03_data_submultiset.

Example C03_witness : exists a, Forall op_typed ex_ops /\ publishes ne_rev ex_o ex_ops a /\ length (ad_data a) = 4%nat /\
  length (values (window ex_ops)) = 15%nat /\ Forall (fun v => In v (values (window ex_ops))) (ad_data a).
Proof.
  eexists. split; [exact ex_typed|]. split; [pub|]. split; [reflexivity|]. split; [reflexivity|]. vm_compute. repeat constructor; tauto.
Qed.

(** C04 *)
Theorem C04_memory_bound : forall ne, nth_element_ok ne -> forall o ops r,
  Forall op_typed ops -> r_run ne (reducer_new o) ops = Ok r -> (r_size r <= o_limit o * o_levels o)%nat.
Proof. exact mem_bound. Qed.
Print Assumptions C04_memory_bound.

Theorem C04_retained_size : forall ne, nth_element_ok ne -> forall o ops a,
  Forall op_typed ops -> publishes ne o ops a ->
  length (ad_data a) = if (o_levels o =? 0)%nat then O else Nat.min (length (values (window ops))) (o_limit o).
Proof. exact pub_size. Qed.
Print Assumptions C04_retained_size.

Example C04_witness : exists r, r_run ne_rev (reducer_new ex_o) ex_ops = Ok r /\ r_size r = 8%nat.
Proof. eexists. split; vm_compute; reflexivity. Qed.

(** C05 *)
Theorem C05_min_max_exact : forall ne, nth_element_ok ne -> forall o ops a,
  Forall op_typed ops -> publishes ne o ops a ->
  (forall d, ~ In (OpAddRed d) (window ops)) -> values (window ops) <> [] ->
  is_min (ad_min a) (values (window ops)) /\ is_max (ad_max a) (values (window ops)).
Proof. exact pub_minmax_plain. Qed.
Print Assumptions C05_min_max_exact.

(** With merged records: the extremes range over all values and the non-zero min/max of the merged records. *)
Theorem C05_min_max_merged : forall ne, nth_element_ok ne -> forall o ops a,
  Forall op_typed ops -> publishes ne o ops a -> extremes (window ops) <> [] ->
  is_min (ad_min a) (extremes (window ops)) /\ is_max (ad_max a) (extremes (window ops)).
Proof. exact pub_minmax. Qed.
Print Assumptions C05_min_max_merged.

(** If calls declared events without handing over any value, min and max are the int64 limits, swapped. *)
Theorem C05_no_values : forall ne, nth_element_ok ne -> forall o ops a,
  Forall op_typed ops -> publishes ne o ops a -> extremes (window ops) = [] ->
  ad_min a = i64_max /\ ad_max a = i64_min /\ ad_avg a = 0 /\ ad_data a = [].
Proof. exact pub_sentinel. Qed.
Print Assumptions C05_no_values.

(** The accessors min() and max() give the extremes so far, 0 if there is no value (and for the int64 limits themselves). *)
Theorem C05_getters : forall ne, nth_element_ok ne -> forall o ops r,
  Forall op_typed ops -> r_run ne (reducer_new o) ops = Ok r ->
  (extremes (window ops) = [] -> r_get_min r = 0 /\ r_get_max r = 0) /\
  (forall m, is_min m (extremes (window ops)) -> r_get_min r = if m =? i64_max then 0 else m) /\
  (forall m, is_max m (extremes (window ops)) -> r_get_max r = if m =? i64_min then 0 else m).
Proof. exact getters. Qed.
Print Assumptions C05_getters.

Example C05_witness : exists a, publishes ne_rev ex_o [OpAddVec [7; -4; 3; 9; 1; 1; 1; 1; 50; -70]] a /\
  ad_min a = -70 /\ ad_max a = 50 /\ ~ In (-70) (ad_data a) /\ ~ In 50 (ad_data a).
Proof.
  eexists. split; [pub|].
  vm_compute. repeat split; intuition discriminate.
Qed.
Example C05_no_values_witness : exists a, publishes ne_rev ex_o [OpAddArr [] 5] a /\ ad_min a = i64_max.
Proof. eexists. split; [pub|]. reflexivity. Qed.

(** C06 *)
Theorem C06_avg_between_min_max : forall ne, nth_element_ok ne -> forall o ops a,
  Forall op_typed ops -> publishes ne o ops a ->
  values (window ops) <> [] -> Z.of_nat (length (values (window ops))) < two64 ->
  Forall (fun v => - 2 ^ 53 <= v <= 2 ^ 53) (values (window ops)) ->
  ad_min a <= ad_avg a <= ad_max a.
Proof. exact pub_avg_minmax. Qed.
Print Assumptions C06_avg_between_min_max.

(** Sharper when records are merged, and with arbitrary bounds: the average stays within any bounds of the values. *)
Theorem C06_avg_in_bounds : forall ne, nth_element_ok ne -> forall o ops a lo hi,
  Forall op_typed ops -> publishes ne o ops a ->
  values (window ops) <> [] -> Z.of_nat (length (values (window ops))) < two64 ->
  - 2 ^ 53 <= lo -> hi <= 2 ^ 53 -> Forall (fun v => lo <= v <= hi) (values (window ops)) ->
  lo <= ad_avg a <= hi.
Proof. exact pub_avg. Qed.
Print Assumptions C06_avg_in_bounds.

Theorem C06_constant_stream : forall ne, nth_element_ok ne -> forall o ops a c,
  Forall op_typed ops -> publishes ne o ops a ->
  values (window ops) <> [] -> Z.of_nat (length (values (window ops))) < two64 ->
  - 2 ^ 53 <= c <= 2 ^ 53 -> Forall (fun v => v = c) (values (window ops)) -> ad_avg a = c.
Proof. exact pub_avg_const. Qed.
Print Assumptions C06_constant_stream.

Example C06_witness : exists a, publishes ne_rev ex_o [OpAddVec [2 ^ 53; 2 ^ 53 - 1; - 2 ^ 53]] a /\
  ad_avg a = 3002399751580331.
Proof. eexists. split; [pub|]. reflexivity. Qed.

(** C07 *)
Theorem C07_publishing_defined : forall ne, nth_element_ok ne -> forall o ops,
  Forall op_typed ops -> Forall op_safe ops -> Z.of_nat (length (values ops)) < two64 ->
  window ops <> [] -> exists a, publishes ne o ops a.
Proof. exact pub_exists. Qed.
Print Assumptions C07_publishing_defined.

(** Sharpness: the first excluded value, and INT64_MAX, make detach() undefined. *)
Theorem C07_cast_undefined_refuted :
  r_detach ne_sort (r_add (2 ^ 63 - 512) 1 (reducer_new ex_o)) = Ub /\
  r_detach ne_sort (r_add i64_max 1 (reducer_new ex_o)) = Ub.
Proof. split; vm_compute; reflexivity. Qed.
Print Assumptions C07_cast_undefined_refuted.

Example C07_witness : exists a, publishes ne_sort ex_o [OpAdd (2 ^ 63 - 513) 1; OpAdd i64_min 1] a.
Proof. eexists. pub. Qed.

(** C08 *)
Theorem C08_no_exception : forall ne, nth_element_ok ne -> forall o ops,
  Forall op_typed ops -> r_run ne (reducer_new o) ops <> Exn.
Proof. exact run_no_exn. Qed.
Print Assumptions C08_no_exception.

Theorem C08_reduce_defined : forall ne, nth_element_ok ne -> forall o ops r,
  Forall op_typed ops -> r_run ne (reducer_new o) ops = Ok r -> exists r', r_reduce ne r = Ok r'.
Proof. exact reduce_total. Qed.
Print Assumptions C08_reduce_defined.

Theorem C08_run_defined : forall ne, nth_element_ok ne -> forall o ops,
  Forall op_typed ops -> Forall op_safe ops -> Z.of_nat (length (values ops)) < two64 ->
  exists r, r_run ne (reducer_new o) ops = Ok r.
Proof. exact run_ok. Qed.
Print Assumptions C08_run_defined.

Example C08_witness : Forall op_typed ex_ops /\ Forall op_safe ex_ops /\ Z.of_nat (length (values ex_ops)) < two64 /\
  exists r r', r_run ne_rev (reducer_new ex_o) ex_ops = Ok r /\ r_reduce ne_rev r = Ok r' /\ r_size r = 8%nat /\ r_size r' = 4%nat.
Proof.
  split; [exact ex_typed|]. split; [exact ex_safe|]. split; [vm_compute; reflexivity|]. eexists _, _.
  split; [vm_compute; reflexivity|]. split; [vm_compute; reflexivity|]. split; reflexivity.
Qed.

(** C09 *)
Theorem C09_lossless : forall ne, nth_element_ok ne -> forall o ops a,
  Forall op_typed ops -> publishes ne o ops a ->
  (1 <= o_levels o)%nat -> (length (values (window ops)) <= o_limit o)%nat ->
  Permutation (ad_data a) (values (window ops)) /\
  ad_lossy a = u64 (declared (window ops) + excess (window ops) - Z.of_nat (length (values (window ops)))).
Proof. exact pub_lossless. Qed.
Print Assumptions C09_lossless.

Example C09_witness : exists a, publishes ne_rev ex_o [OpAdd 7 10; OpAddArr [3; 9] 2] a /\
  Permutation (ad_data a) [7; 3; 9] /\ ad_lossy a = 9.
Proof. eexists. split; [pub|]. split; [reflexivity|reflexivity]. Qed.

(** C10 *)
Theorem C10_peek_matches_detach : forall ne, nth_element_ok ne -> forall o ops r,
  Forall op_typed ops -> r_run ne (reducer_new o) ops = Ok r ->
  match r_get_reduced ne r, r_detach ne r with
  | Ok (Some a), Ok (Some b, _) => same_summary a b
  | Ok None, Ok (None, _) => True
  | Ub, Ub => True
  | _, _ => False
  end.
Proof. exact peek_same. Qed.
Print Assumptions C10_peek_matches_detach.

Theorem C10_peek_matches_detach_fixed : forall ne, nth_element_ok ne -> forall o ops r,
  Forall op_typed ops -> r_run ne (reducer_new o) ops = Ok r -> fixed_mode o ->
  r_get_reduced ne r = ('(a, _) <- r_detach ne r ;; Ok a).
Proof. exact peek_fixed. Qed.
Print Assumptions C10_peek_matches_detach_fixed.

Example C10_witness : exists r a r', fixed_mode ex_o /\ r_run ne_rev (reducer_new ex_o) ex_ops = Ok r /\
  r_get_reduced ne_rev r = Ok (Some a) /\ r_detach ne_rev r = Ok (Some a, r') /\ ad_count a = 25 /\ length (ad_data a) = 4%nat.
Proof.
  eexists _, _, _. split; [vm_compute; intuition discriminate|]. split; [vm_compute; reflexivity|].
  split; [vm_compute; reflexivity|]. split; [vm_compute; reflexivity|]. split; reflexivity.
Qed.

(** In adaptive mode the sampled values may differ, because the clone forgets the current mode. *)
Definition ad_o : ropts := mk_ropts 4 2 Adapt Sorting.
Definition ad_ops : list rop :=
  [OpAddVec [1; 2; 3; 4; 5; 6; 7; 8]; OpDetach; OpAddVec [1; 2; 3; 4; 5; 6; 7; 8]].
Theorem C10_peek_adaptive_refuted : exists r a b r',
  r_run ne_rev (reducer_new ad_o) ad_ops = Ok r /\ r_get_reduced ne_rev r = Ok (Some a) /\
  r_detach ne_rev r = Ok (Some b, r') /\ ~ Permutation (ad_data a) (ad_data b).
Proof.
  do 4 eexists. split; [vm_compute; reflexivity|]. split; [vm_compute; reflexivity|].
  split; [vm_compute; reflexivity|]. simpl. intros P. apply (Permutation_in 3) in P; [simpl in P; intuition discriminate|simpl; auto].
Qed.
Print Assumptions C10_peek_adaptive_refuted.

(** C11 *)
Theorem C11_windows_independent : forall ne, nth_element_ok ne -> forall o before op after a b,
  Forall op_typed (before ++ op :: after) -> op = OpDetach \/ op = OpClear ->
  publishes ne o (before ++ op :: after) a -> publishes ne o after b -> same_summary a b.
Proof. exact pub_reset. Qed.
Print Assumptions C11_windows_independent.

Theorem C11_windows_independent_fixed : forall ne, nth_element_ok ne -> forall o before op after a b,
  Forall op_typed before -> op = OpDetach \/ op = OpClear -> fixed_mode o ->
  publishes ne o (before ++ op :: after) a -> publishes ne o after b -> a = b.
Proof. exact pub_reset_fixed. Qed.
Print Assumptions C11_windows_independent_fixed.

Theorem C11_reset_is_new_fixed : forall ne, nth_element_ok ne -> forall o before op r,
  Forall op_typed before -> op = OpDetach \/ op = OpClear -> fixed_mode o ->
  r_run ne (reducer_new o) (before ++ [op]) = Ok r -> r = reducer_new o.
Proof. exact reset_fixed. Qed.
Print Assumptions C11_reset_is_new_fixed.

(** In adaptive mode the previous window can change the sample (not the summary). *)
Theorem C11_adaptive_data_refuted : exists a b,
  publishes ne_rev ad_o ad_ops a /\ publishes ne_rev ad_o [OpAddVec [1; 2; 3; 4; 5; 6; 7; 8]] b /\
  ~ Permutation (ad_data a) (ad_data b).
Proof.
  do 2 eexists. split; [pub|].
  split; [pub|].
  simpl. intros P. apply Permutation_sym, (Permutation_in 3) in P; [simpl in P; intuition discriminate|simpl; auto].
Qed.
Print Assumptions C11_adaptive_data_refuted.

Example C11_witness : exists a, publishes ne_rev ex_o ex_ops a /\
  publishes ne_rev ex_o (skipn 3 ex_ops) a /\ fixed_mode ex_o.
Proof.
  eexists. split; [pub|].
  split; [pub|]. left. discriminate.
Qed.

(** C12 *)
Theorem C12_stratified : forall ne, nth_element_ok ne -> forall o ops a,
  Forall op_typed ops -> ~ In OpReduce ops -> sorting_mode o -> publishes ne o ops a ->
  let vs := values (window ops) in
  let n := used_levels (o_limit o) (o_levels o) vs in
  let m := length (block (o_limit o) vs (n - 1)) in
  forall i, (i < length (ad_data a))%nat ->
    (supplier n m i < n)%nat /\
    exists x, nth_error (ad_data a) i = Some x /\ rank_is (block (o_limit o) vs (supplier n m i)) i x.
Proof. exact pub_strat. Qed.
Print Assumptions C12_stratified.

Theorem C12_rank_enclosure : forall ne, nth_element_ok ne -> forall o ops a k x,
  Forall op_typed ops -> ~ In OpReduce ops -> sorting_mode o -> publishes ne o ops a -> rank_is (ad_data a) k x ->
  let vs := values (window ops) in
  let n := used_levels (o_limit o) (o_levels o) vs in
  (exists s y, (s < n)%nat /\ rank_is (block (o_limit o) vs s) k y /\ y <= x) /\
  (exists s y, (s < n)%nat /\ rank_clipped (block (o_limit o) vs s) k y /\ x <= y).
Proof. exact pub_strat_rank. Qed.
Print Assumptions C12_rank_enclosure.

Definition st_o : ropts := mk_ropts 4 3 Sorting Sorting.
Definition st_ops : list rop := [OpAddVec [40; 10; 30; 20; 44; 14; 34; 24; 2; 1; 50]; OpAdd 7 9; OpAdd 8 1].
Example C12_witness : exists a, publishes ne_rev st_o st_ops a /\ ad_data a = [10; 24; 7; 40].
Proof. eexists. split; [pub|]. vm_compute. reflexivity. Qed.

(** In nth mode the enclosure does not hold for every conforming nth_element: both levels are {1,2,3,4}, their values
    of rank 2 are 3, yet the published value of rank 2 is 2. *)
Theorem C12_nth_mode_refuted : exists a,
  publishes ne_rev ex_o [OpAddVec [1; 2; 3; 4; 1; 2; 3; 4]] a /\ rank_is (ad_data a) 2 2 /\
  rank_is [1; 2; 3; 4] 2 3.
Proof.
  eexists. split; [pub|].
  split; apply rank_is_nth_error; vm_compute; reflexivity.
Qed.
Print Assumptions C12_nth_mode_refuted.

(** C13 *)
Theorem C13_merge_count : forall ne, nth_element_ok ne -> forall o ops d r,
  Forall op_typed ops -> op_typed (OpAddRed d) -> r_run ne (reducer_new o) ops = Ok r ->
  r_total_count (r_add_red d r) = u64 (r_total_count r + ri_count (rd_info d)).
Proof. exact merge_count. Qed.
Print Assumptions C13_merge_count.

Theorem C13_merge_bounds_partial : forall ne, nth_element_ok ne -> forall o ops a d,
  Forall op_typed ops -> publishes ne o ops a -> In (OpAddRed d) (window ops) ->
  (ri_min (rd_info d) <> 0 -> ad_min a <= ri_min (rd_info d)) /\
  (ri_max (rd_info d) <> 0 -> ri_max (rd_info d) <= ad_max a).
Proof. exact pub_merge_bounds. Qed.
Print Assumptions C13_merge_bounds_partial.

(** The missing case: a record of three events with values 0, 5, 6, of which only 5 and 6 were retained, loses its
    minimum 0; the record is itself one that a reducer publishes. *)
Theorem C13_merge_zero_refuted : exists src dst,
  publishes ne_rev (mk_ropts 2 1 Nth Sorting) [OpAddVec [5; 6; 0]] src /\ ad_min src = 0 /\
  publishes ne_rev (mk_ropts 2 1 Nth Sorting) [OpAddRed (ad_reduced src)] dst /\ ad_min dst = 5.
Proof.
  do 2 eexists. split; [pub|]. split; [reflexivity|].
  split; [pub|]. reflexivity.
Qed.
Print Assumptions C13_merge_zero_refuted.

Example C13_witness : exists a, publishes ne_rev ex_o ex_ops a /\ ad_min a = -20 /\ ad_max a = 20 /\
  In (OpAddRed (mk_rdata (mk_rinfo 0 7 5 (-20) 20 4) [6; 6])) (window ex_ops).
Proof.
  eexists. split; [pub|]. split; [reflexivity|]. split; [reflexivity|].
  vm_compute. auto.
Qed.
