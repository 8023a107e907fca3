(** Properties C35, C36 and the multi_aggregator part of C33 (wrtstat/multi_aggregator/). *)
From Coq Require Import ZArith List Bool Permutation Lia Arith Ascii.
From Verif Require Import Base SortFacts ModelTypes ModelAvg ModelReducer SpecReducer ModelSeparator SpecSeparator
  ModelAggregator SpecAggregator AggSafe ModelRegistry SpecRegistry ModelMulti SpecMulti MultiProofs MultiRun
  PropsReducer PropsSeparator PropsAggregator PropsRegistry.
Import ListNotations.
Local Open Scope Z_scope.

(** Example: three shards; "a", "b", "c" collide, "dd" is elsewhere. *)
Definition nd : name := ["d"; "d"]%char.
Definition mx_hash (n : name) : Z := 7 * Z.of_nat (length n).
Definition mx_o : maopts := mk_maopts gx_o 3.
Definition mx_e : penv := mk_penv 5 7 11 13.
Definition mx_d (ts v : Z) : rdata := mk_rdata (mk_rinfo ts 3 1 v (v + 1) v) [v; v + 1].
Definition mx_ops : list mop :=
  [MPush mx_e na (mx_d 108 4) true; MPush mx_e nb (mx_d 108 5) true; MPush mx_e nd (mx_d 109 6) true; MSize;
   MMulti [(mx_e, (na, mx_d 113 7)); (mx_e, (nd, mx_d 125 8)); (mx_e, (na, mx_d 131 9))] true;
   MDel nb; MDel nb; MPushout false true (fun l => l); MPushout true true (@rev name); MPush mx_e nd (mx_d 120 3) true; MSize].
Example mx_order : Forall order_ok mx_ops.
Proof. repeat (constructor; [first [exact I | intros l; first [apply Permutation_refl | apply Permutation_sym, Permutation_rev]]|]). constructor. Qed.
Example mx_run : exists outs m, ma_run ne_rev mx_hash (ma_new mx_o) mx_ops = Ok (outs, m) /\
  map (fun o => map (fun p => (fst p, ad_ts (snd p), ad_count (snd p))) (mrecs o)) outs =
    [[]; []; []; []; [(na, 100, 3); (nd, 100, 3); (na, 110, 3)]; []; []; []; [(na, 130, 3); (nd, 120, 3)]; []; []] /\
  nth 3 outs (MRecs []) = MSizes 3 6 /\ nth 5 outs (MRecs []) = MAns true [] /\ nth 6 outs (MRecs []) = MAns false [] /\
  nth 10 outs (MRecs []) = MSizes 2 2.
Proof. eexists _, _. split; [vm_compute; reflexivity|]. vm_compute. auto. Qed.

(** C35 *)
(** Whatever the hash function and the number of shards, every answer is that of a single map from names to
    aggregators (SpecMulti.single). *)
Theorem C35_single_map : forall ne hash o ops outs m, (0 < ma_hash o)%nat -> Forall order_ok ops ->
  ma_run ne hash (ma_new o) ops = Ok (outs, m) ->
  single_run ne (ma_agg o) (fun _ => None) ops outs (ma_get hash o m).
Proof. exact single_map. Qed.
Print Assumptions C35_single_map.

(** Safe inputs never fail, whatever the hash function. *)
Theorem C35_total : forall ne, nth_element_ok ne -> forall hash o, (0 < ma_hash o)%nat ->
  0 < so_step (ao_sep (ma_agg o)) <= i64_max -> forall ops,
  Forall order_ok ops -> Forall (mop_safe (ma_agg o)) ops -> Z.of_nat (length (flat_map mop_values ops)) < two64 ->
  exists outs m, ma_run ne hash (ma_new o) ops = Ok (outs, m).
Proof. exact multi_total. Qed.
Print Assumptions C35_total.

(** hash_size = 0 makes every call by name undefined (remainder by zero). *)
Theorem C35_hash_size_zero : forall ne hash o e n d h, ma_hash o = 0%nat ->
  ma_push ne hash e n d h (ma_new o) = Ub /\ ma_del hash n (ma_new o) = Ub.
Proof. intros ne hash [a hs] e n d h E. simpl in E. subst. split; reflexivity. Qed.
Print Assumptions C35_hash_size_zero.

Example C35_witness : Forall order_ok mx_ops /\ Forall (mop_safe gx_o) mx_ops /\ (0 < ma_hash mx_o)%nat /\
  shard_of mx_hash mx_o na = shard_of mx_hash mx_o nb /\ shard_of mx_hash mx_o na <> shard_of mx_hash mx_o nd.
Proof.
  split; [apply mx_order|]. split; [|vm_compute; repeat split; auto; discriminate].
  assert (P : forall ts v, In (ts, v) [(108, 4); (108, 5); (109, 6); (113, 7); (125, 8); (131, 9); (120, 3)] -> push_safe gx_o mx_e (mx_d ts v)).
  { intros ts v H. simpl in H.
    repeat (destruct H as [H|H]; [injection H as <- <-; split; [split; [typed|exact I]|]; split;
      [simpl; unfold op_safe, val_safe, time_ok, i64_min, i64_max; simpl; repeat split; try lia; repeat constructor; lia|];
      simpl; unfold time_ok, i64_min, i64_max; simpl; repeat split; try lia; auto|]). destruct H. }
  repeat (constructor; [simpl; first [exact I | reflexivity | split; [reflexivity|]; first [apply P; simpl; tauto | repeat (constructor; [apply P; simpl; tauto|]); constructor]]|]).
  constructor.
Qed.

(** C33 for multi_aggregator *)
(** The answers concerning one name are those of that name's aggregator alone, fed with the calls addressed to it. *)
Theorem C33_multi_isolation : forall ne hash o, (0 < ma_hash o)%nat -> forall n ops outs m, Forall order_ok ops ->
  ma_run ne hash (ma_new o) ops = Ok (outs, m) ->
  krun ne (ma_agg o) None (map fst (kproject n ops outs)) = Ok (map snd (kproject n ops outs), ma_get hash o m n).
Proof. exact isolation. Qed.
Print Assumptions C33_multi_isolation.

(** Hence two histories with the same calls for [n] give the same answers for [n], whatever else happens, and whatever
    the hash functions. *)
Theorem C33_multi_non_interference : forall ne hash1 hash2 o1 o2 n ops1 ops2 outs1 outs2 m1 m2,
  (0 < ma_hash o1)%nat -> (0 < ma_hash o2)%nat -> ma_agg o1 = ma_agg o2 -> Forall order_ok ops1 -> Forall order_ok ops2 ->
  ma_run ne hash1 (ma_new o1) ops1 = Ok (outs1, m1) -> ma_run ne hash2 (ma_new o2) ops2 = Ok (outs2, m2) ->
  map fst (kproject n ops1 outs1) = map fst (kproject n ops2 outs2) ->
  map snd (kproject n ops1 outs1) = map snd (kproject n ops2 outs2).
Proof.
  intros ne hash1 hash2 o1 o2 n ops1 ops2 outs1 outs2 m1 m2 P1 P2 EO O1 O2 E1 E2 E.
  pose proof (isolation ne hash1 o1 P1 n _ _ _ O1 E1) as I1. pose proof (isolation ne hash2 o2 P2 n _ _ _ O2 E2) as I2.
  rewrite EO, E, I2 in I1. congruence.
Qed.
Print Assumptions C33_multi_non_interference.

Example C33_multi_witness : exists outs m, ma_run ne_rev mx_hash (ma_new mx_o) mx_ops = Ok (outs, m) /\
  map fst (kproject nd mx_ops outs) = [KPush mx_e (mx_d 109 6); KMulti [(mx_e, mx_d 125 8)]; KPop false; KPop true; KPush mx_e (mx_d 120 3)].
Proof. eexists _, _. split; [vm_compute; reflexivity|]. vm_compute. reflexivity. Qed.

(** C36 *)
(** pushout() never delivers anything and never changes anything, after every history, with or without a handler. *)
Theorem C36_pushout_silent_refuted : forall ne hash o, (0 < ma_hash o)%nat -> forall ops outs m h ord, Forall order_ok ops ->
  ma_run ne hash (ma_new o) ops = Ok (outs, m) -> ma_pushout ne false h ord m = Ok ([], m).
Proof. exact pushout_silent. Qed.
Print Assumptions C36_pushout_silent_refuted.

(** The records a push hands to the handler have no percentiles; those of force_pushout do. *)
Theorem C36_no_percentiles_refuted : exists outs m p q, ma_run ne_rev mx_hash (ma_new mx_o) mx_ops = Ok (outs, m) /\
  In (na, p) (mrecs (nth 4 outs (MRecs []))) /\ ad_data p = [4; 5] /\ ad_perc p = mk_perc 0 0 0 0 0 /\
  In (na, q) (mrecs (nth 8 outs (MRecs []))) /\ ad_data q = [9; 10] /\ p50 (ad_perc q) = 10.
Proof.
  eexists _, _, _, _. split; [vm_compute; reflexivity|]. split; [left; reflexivity|]. split; [reflexivity|]. split; [reflexivity|].
  split; [left; reflexivity|]. split; reflexivity.
Qed.
Print Assumptions C36_no_percentiles_refuted.

(** What holds instead: for a name that is not deleted, the records delivered under it by push, multi_push and
    force_pushout are exactly those of one aggregator that received the pushes and pops in this order (percentiles of
    the records delivered by pushes left out) ... *)
Theorem C36_history_partial : forall ne hash o, (0 < ma_hash o)%nat -> forall n ops outs m g, Forall order_ok ops ->
  ma_run ne hash (ma_new o) ops = Ok (outs, m) -> ~ In (MDel n) ops -> ma_get hash o m n = Some g ->
  exists c rnd ts g0 rs, agg_new (ma_agg o) c rnd ts = Ok g0 /\ g_run ne g0 (hist n ops) = Ok (rs, g) /\
    of_name n (flat_map mrecs outs) = flat_map reports rs.
Proof. exact history. Qed.
Print Assumptions C36_history_partial.

(** ... so every accepted push is counted in exactly one delivered record or in the open window. *)
Theorem C36_conservation_partial : forall ne, nth_element_ok ne -> forall hash o, (0 < ma_hash o)%nat -> forall n ops outs m g p,
  0 < so_step (ao_sep (ma_agg o)) -> Forall order_ok ops -> ma_run ne hash (ma_new o) ops = Ok (outs, m) -> ~ In (MDel n) ops ->
  Forall gop_typed (hist n ops) -> ma_get hash o m n = Some g -> g_current ne g = Ok p ->
  exists c rnd ts g0 rs, agg_new (ma_agg o) c rnd ts = Ok g0 /\ g_run ne g0 (hist n ops) = Ok (rs, g) /\
    let seen := of_name n (flat_map mrecs outs) in
    let acc := map snd (recorded (so_step (ao_sep (ma_agg o))) (so_res (ao_sep (ma_agg o))) true (hist n ops) (map out_bool rs)) in
    u64 (sum_count seen + match p with Some d => ad_count d | None => 0 end) = u64 (declared acc) /\
    submultiset (flat_map ad_data seen) (values acc).
Proof. exact conservation. Qed.
Print Assumptions C36_conservation_partial.

Example C36_witness : exists outs m g p, ma_run ne_rev mx_hash (ma_new mx_o) mx_ops = Ok (outs, m) /\ ~ In (MDel nd) mx_ops /\
  ma_get mx_hash mx_o m nd = Some g /\ g_current ne_rev g = Ok (Some p) /\ ad_count p = 3 /\
  map ad_count (of_name nd (flat_map mrecs outs)) = [3; 3] /\ Forall gop_typed (hist nd mx_ops).
Proof.
  eexists _, _, _, _. split; [vm_compute; reflexivity|]. split; [simpl; intuition discriminate|].
  split; [vm_compute; reflexivity|]. split; [vm_compute; reflexivity|]. split; [reflexivity|]. split; [vm_compute; reflexivity|].
  simpl. repeat (constructor; [first [exact I | split; [|exact I]; typed]|]). constructor.
Qed.
