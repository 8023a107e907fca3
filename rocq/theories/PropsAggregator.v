(** Properties C21-C27, and C10, C14, C15, C17, C18, C20 at the level of one aggregator object
    (wrtstat/aggregator/basic_aggregator.cpp). *)
From Coq Require Import ZArith List Bool Permutation Lia Sorted Arith.
From Verif Require Import Base SortFacts ModelTypes ModelAvg ModelReducer SpecReducer ModelSeparator SpecSeparator
  ModelAggregator SpecAggregator AggProofs AggRun AggFinal PropsReducer PropsSeparator.
Import ListNotations.
Local Open Scope Z_scope.

(** Example: step 10, windows start at 100, reducer limit 8x2, outgoing size 4. *)
Definition gx_o : aopts := mk_aopts (mk_sopts (mk_ropts 8 2 Adapt Sorting) 10 RSeconds 0) 4.
Definition gx_g0 : agg := match agg_new gx_o 0 0 108 with Ok g => g | _ => mk_agg sx_s0 0 true [] true end.
Definition gx_ops : list gop :=
  [GoAdd (SmScalar 103 7 1) 0 0; GoAdd (SmArr 105 [1; 2; 3; 9; 8; 4] 6) 0 0; GoPush (SmScalar 117 9 2) true 0 0;
   GoAdd (SmScalar 104 5 1) 0 0; GoCurrent; GoEnable false; GoAdd (SmScalar 118 50 1) 0 0; GoEnable true;
   GoPush (SmArr 0 [4; 4] 2) false 147 0; GoPop;
   GoAdd (SmRed (mk_rdata (mk_rinfo 155 3 1 2 9 3) [2; 9])) 0 0; GoSeparate 160 false false 0; GoPop;
   GoPush (SmScalar 172 6 1) true 0 0].
Example gx_new : agg_new gx_o 0 0 108 = Ok gx_g0 /\ agg_label gx_g0 = 100. Proof. vm_compute. auto. Qed.
Example gx_idle : g_idle ne_rev gx_o gx_g0.
Proof. eapply gnew_idle; [reflexivity|]. apply gx_new. Qed.
Example gx_typed : Forall gop_typed gx_ops.
Proof. repeat (constructor; [first [exact I | split; [|exact I]; typed]|]). constructor. Qed.
Example gx_regular : Forall gregular gx_ops. Proof. repeat (constructor; [exact I|]). constructor. Qed.
Example gx_coherent : Forall (gcoherent 10 RSeconds) gx_ops.
Proof. repeat (constructor; [first [exact I | reflexivity]|]). constructor. Qed.
Example gx_run : exists outs g, g_run ne_rev gx_g0 gx_ops = Ok (outs, g) /\
  map ad_ts (flat_map out_handler outs) = [100] /\
  map ad_ts (gpopped gx_ops (map out_ptr outs)) = [110; 140] /\ map ad_ts (g_list g) = [150] /\
  map fst (recorded 10 RSeconds true gx_ops (map out_bool outs)) = [100; 100; 110; 140; 150; 170] /\
  agg_label g = 170.
Proof. eexists _, _. split; [vm_compute; reflexivity|]. vm_compute. auto 10. Qed.

(** C21 *)
(** After construction and any history (clear, force_pop, enable included), every record delivered by a push handler,
    pop, force_pop or aggregate_current, and every record waiting in the queue, stems from a non-empty window; its
    summary is that window's, its percentiles are the order statistics of the retained data [ad_data a]. *)
Theorem C21_percentiles_exact : forall ne, nth_element_ok ne -> forall o c rnd ts g0 ops outs g,
  0 < so_step (ao_sep o) -> agg_new o c rnd ts = Ok g0 ->
  Forall gop_typed ops -> g_run ne g0 ops = Ok (outs, g) ->
  Forall (fun d => exists w gr a b,
      gr <> [] /\ record_of ne (so_red (ao_sep o)) w gr b /\ same_summary a b /\ ad_ts a = w /\ finished (ao_out o) a d)
    (deliveries ops outs ++ g_list g).
Proof. exact delivered_all. Qed.
Print Assumptions C21_percentiles_exact.

(** [finished] spelled out for the percentiles. *)
Theorem C21_finished_percentiles : forall ne, nth_element_ok ne -> forall out a d,
  g_finish ne out a = Ok d -> ad_data a <> [] ->
  let n := length (ad_data a) in
  rank_is (ad_data a) (n * 50 / 100) (p50 (ad_perc d)) /\ rank_is (ad_data a) (n * 80 / 100) (p80 (ad_perc d)) /\
  rank_is (ad_data a) (n * 95 / 100) (p95 (ad_perc d)) /\ rank_is (ad_data a) (n * 99 / 100) (p99 (ad_perc d)).
Proof. intros ne Hne out a d E N. exact (proj1 (proj1 (proj2 (proj2 (proj2 (finish_fun ne Hne out a d E)))) N)). Qed.
Print Assumptions C21_finished_percentiles.

Example C21_witness : exists outs g, g_run ne_rev gx_g0 gx_ops = Ok (outs, g) /\
  map (fun d => (ad_data d, p50 (ad_perc d), p80 (ad_perc d), p99 (ad_perc d), p100 (ad_perc d))) (deliveries gx_ops outs)
  = [([2; 7; 1], 4, 8, 9, 9); ([9], 9, 9, 9, 9); ([9], 9, 9, 9, 9); ([4; 4], 4, 4, 4, 4)].
Proof. eexists _, _. split; [vm_compute; reflexivity|]. vm_compute. reflexivity. Qed.

(** C22 *)
Theorem C22_percentiles_ordered : forall ne, nth_element_ok ne -> forall o c rnd ts g0 ops outs g,
  0 < so_step (ao_sep o) -> agg_new o c rnd ts = Ok g0 ->
  Forall gop_typed ops -> g_run ne g0 ops = Ok (outs, g) ->
  Forall (fun d => ad_data d <> [] ->
    let p := ad_perc d in p50 p <= p80 p <= p95 p /\ p95 p <= p99 p <= p100 p) (deliveries ops outs ++ g_list g).
Proof. exact perc_ordered. Qed.
Print Assumptions C22_percentiles_ordered.

(** With reducer_limit at most 200 perc100 is an upper bound of every delivered value. *)
Theorem C22_perc100_max : forall ne, nth_element_ok ne -> forall o c rnd ts g0 ops outs g,
  0 < so_step (ao_sep o) -> agg_new o c rnd ts = Ok g0 ->
  Forall gop_typed ops -> g_run ne g0 ops = Ok (outs, g) -> (o_limit (so_red (ao_sep o)) <= 200)%nat ->
  Forall (fun d => forall v, In v (ad_data d) -> v <= p100 (ad_perc d)) (deliveries ops outs ++ g_list g).
Proof. exact perc100_max. Qed.
Print Assumptions C22_perc100_max.

Theorem C22_perc100_of_retained : forall ne, nth_element_ok ne -> forall out a d,
  g_finish ne out a = Ok d -> ad_data a <> [] ->
  p99 (ad_perc d) <= p100 (ad_perc d) /\ In (p100 (ad_perc d)) (ad_data a) /\
  ((length (ad_data a) <= 200)%nat -> is_max (p100 (ad_perc d)) (ad_data a)).
Proof. intros ne Hne out a d E N. exact (proj2 (proj1 (proj2 (proj2 (proj2 (finish_fun ne Hne out a d E)))) N)). Qed.
Print Assumptions C22_perc100_of_retained.

Example C22_witness : exists outs g d,
  g_run ne_rev gx_g0 [GoAdd (SmArr 105 [5; 1; 4; 2; 3; 6; 9; 8] 8) 0 0; GoForcePop] = Ok (outs, g) /\ map out_ptr outs = [None; Some d] /\
  (o_limit (so_red (ao_sep gx_o)) <= 200)%nat /\ p100 (ad_perc d) = 9 /\ ad_max d = 9.
Proof.
  eexists _, _, _. split; [vm_compute; reflexivity|]. split; [vm_compute; reflexivity|]. split; [vm_compute; lia|]. split; reflexivity.
Qed.

(** The bound 200 is sharp: with 201 values added in one window a conforming nth_element makes perc100 too small. *)
Definition c22_o : aopts := mk_aopts (mk_sopts (mk_ropts 256 1 Sorting Sorting) 10 RSeconds 0) 0.
Theorem C22_above_200_refuted : exists g0 outs g d,
  agg_new c22_o 0 0 108 = Ok g0 /\
  g_run ne_rev g0 [GoAdd (SmArr 105 (map Z.of_nat (seq 1 201)) 201) 0 0; GoForcePop] = Ok (outs, g) /\
  map out_ptr outs = [None; Some d] /\ length (ad_data d) = 201%nat /\ ad_max d = 201 /\ p100 (ad_perc d) = 200.
Proof. eexists _, _, _, _. do 3 (split; [vm_compute; reflexivity|]). vm_compute. auto. Qed.
Print Assumptions C22_above_200_refuted.

(** C23 *)
(** The delivered data arises from a reordering of the retained data by deletion. *)
Theorem C23_delivered_subsequence : forall ne, nth_element_ok ne -> forall out a d,
  g_finish ne out a = Ok d -> exists v, Permutation v (ad_data a) /\ subseq (ad_data d) v.
Proof. intros ne Hne out a d E. exact (proj1 (proj2 (finish_fun ne Hne out a d E))). Qed.
Print Assumptions C23_delivered_subsequence.

Theorem C23_delivered_size : forall ne, nth_element_ok ne -> forall out a d,
  g_finish ne out a = Ok d -> let n := length (ad_data a) in let m := length (ad_data d) in
  ((out = 0 \/ n <= out) -> m = n)%nat /\
  (out <> 0 -> out < n -> n < 2 * out -> n / 2 <= m <= out /\ 1 <= m)%nat /\
  (out <> 0 -> 2 * out <= n -> out <= m <= out + out / 2)%nat.
Proof. intros ne Hne out a d E. exact (proj2 (proj2 (proj2 (proj2 (finish_fun ne Hne out a d E))))). Qed.
Print Assumptions C23_delivered_size.

(** Ten retained values, outgoing_reduced_size 4: five are delivered, out of a reordering of the ten. *)
Example C23_witness : exists d, g_finish ne_rev 4 (mk_adata (mk_rinfo 100 10 0 1 10 5) (mk_perc 0 0 0 0 0) [5; 1; 4; 2; 3; 6; 9; 8; 10; 7]) = Ok d /\
  length (ad_data d) = 5%nat /\ p100 (ad_perc d) = 10.
Proof. eexists. split; [vm_compute; reflexivity|]. split; reflexivity. Qed.

(** The documented bound outgoing_reduced_size is not kept. *)
Theorem C23_outgoing_size_refuted : exists g0 outs g d,
  agg_new (mk_aopts (ao_sep gx_o) 2) 0 0 108 = Ok g0 /\
  g_run ne_sort g0 [GoAdd (SmArr 105 [1; 2; 3; 4; 5] 5) 0 0; GoForcePop] = Ok (outs, g) /\
  map out_ptr outs = [None; Some d] /\ ad_data d = [1; 3; 5].
Proof. eexists _, _, _, _. do 3 (split; [vm_compute; reflexivity|]). vm_compute. auto. Qed.
Print Assumptions C23_outgoing_size_refuted.

(** C24 *)
Theorem C24_disabled_inert : forall ne op g, g_enabled g = false -> gop_typed op ->
  match op with
  | GoAdd _ _ _ | GoPush _ _ _ _ => g_call ne op g = Ok (mk_sout (Some true) [] None, g)
  | _ => True
  end.
Proof. exact disabled_call. Qed.
Print Assumptions C24_disabled_inert.

(** Any history equals the history in which the add/push calls made while disabled are left out. *)
Theorem C24_as_if_not_made : forall ne ops, Forall gop_typed ops -> forall g outs g',
  g_run ne g ops = Ok (outs, g') ->
  exists outs', g_run ne g (effective (g_enabled g) ops) = Ok (outs', g') /\
    flat_map out_handler outs' = flat_map out_handler outs /\
    gpopped (effective (g_enabled g) ops) (map out_ptr outs') = gpopped ops (map out_ptr outs).
Proof. exact effective_run. Qed.
Print Assumptions C24_as_if_not_made.

Example C24_witness : length (effective true gx_ops) = 13%nat /\ length gx_ops = 14%nat. Proof. auto. Qed.

(** C25 *)
(** What holds: every record delivered by the handler of push, by pop and force_pop is the finished form of a window. *)
Theorem C25_delivered_finished_partial : forall ne, nth_element_ok ne -> forall o c rnd ts g0 ops outs g,
  0 < so_step (ao_sep o) -> agg_new o c rnd ts = Ok g0 ->
  Forall gop_typed ops -> g_run ne g0 ops = Ok (outs, g) ->
  Forall2 (fun op r =>
    (match op with GoSeparate _ _ _ _ => True | _ =>
       Forall (fun d => exists w gr, gr <> [] /\ delivery_of ne (so_red (ao_sep o)) (ao_out o) w gr d) (out_handler r) end) /\
    match op, out_ptr r with
    | _, None => True
    | GoCurrent, Some d => exists w gr a b, gr <> [] /\ record_of ne (so_red (ao_sep o)) w gr b /\ same_summary a b /\ ad_ts a = w /\
                             finished (ao_out o) a d
    | _, Some d => exists w gr, gr <> [] /\ delivery_of ne (so_red (ao_sep o)) (ao_out o) w gr d
    end) ops outs /\
  Forall (fun d => exists w gr, gr <> [] /\ delivery_of ne (so_red (ao_sep o)) (ao_out o) w gr d) (g_list g).
Proof. exact gdelivered. Qed.
Print Assumptions C25_delivered_finished_partial.

Example C25_witness : exists outs g, agg_new gx_o 0 0 108 = Ok gx_g0 /\ Forall gop_typed gx_ops /\ g_run ne_rev gx_g0 gx_ops = Ok (outs, g) /\
  map (fun d => p100 (ad_perc d)) (deliveries gx_ops outs ++ g_list g) = [9; 9; 9; 4; 9].
Proof.
  eexists _, _. split; [apply gx_new|]. split; [exact gx_typed|]. split; [vm_compute; reflexivity|]. vm_compute. reflexivity.
Qed.

(** separate() with a handler hands over raw records: no percentiles, not thinned. *)
Theorem C25_separate_raw_refuted : exists outs g d,
  g_run ne_sort gx_g0 [GoAdd (SmArr 105 [1; 2; 3; 4; 5; 6; 7; 8] 8) 0 0; GoSeparate 111 true false 0] = Ok (outs, g) /\
  map out_handler outs = [[]; [d]] /\ length (ad_data d) = 8%nat /\ ao_out gx_o = 4%nat /\ ad_perc d = mk_perc 0 0 0 0 0.
Proof. eexists _, _, _. do 2 (split; [vm_compute; reflexivity|]). vm_compute. auto. Qed.
Print Assumptions C25_separate_raw_refuted.

(** C26 *)
(** In any history without clear: the queue is FIFO.  What pop() returned, followed by what is still queued, is what
    was queued before followed by what was queued since. *)
Theorem C26_pop_fifo_partial : forall ne ops, Forall gnot_clear ops -> forall g outs g',
  g_run ne g ops = Ok (outs, g') ->
  exists queued, g_list g ++ queued = pops ops (map out_ptr outs) ++ g_list g'.
Proof. exact fifo_run. Qed.
Print Assumptions C26_pop_fifo_partial.

(** force_pop() returns exactly the open window and leaves the queue alone. *)
Theorem C26_force_pop_partial : forall ne, nth_element_ok ne -> forall o ops g0 outs g d g',
  0 < so_step (ao_sep o) -> g_idle ne o g0 ->
  Forall gop_typed ops -> Forall gregular ops -> Forall (gcoherent (so_step (ao_sep o)) (so_res (ao_sep o))) ops ->
  g_run ne g0 ops = Ok (outs, g) -> g_force_pop ne g = Ok (d, g') ->
  let gr := ops_in (agg_label g0) (so_step (ao_sep o)) (agg_label g)
              (recorded (so_step (ao_sep o)) (so_res (ao_sep o)) (g_enabled g0) ops (map out_bool outs)) in
  g_list g' = g_list g /\
  match d with
  | None => gr = []
  | Some x => gr <> [] /\ delivery_of ne (so_red (ao_sep o)) (ao_out o) (agg_label g) gr x
  end.
Proof. exact force_pop_open. Qed.
Print Assumptions C26_force_pop_partial.

Example C26_witness : exists outs g d g', Forall gnot_clear gx_ops /\ g_run ne_rev gx_g0 gx_ops = Ok (outs, g) /\
  map ad_ts (pops gx_ops (map out_ptr outs)) = [110; 140] /\ map ad_ts (g_list g) = [150] /\
  g_force_pop ne_rev g = Ok (Some d, g') /\ ad_ts d = 170 /\ ad_count d = 1 /\ map ad_ts (g_list g') = [150].
Proof.
  eexists _, _, _, _. split; [repeat (constructor; [exact I|]); constructor|]. split; [vm_compute; reflexivity|].
  split; [reflexivity|]. split; [reflexivity|]. split; [vm_compute; reflexivity|]. split; [reflexivity|]. split; reflexivity.
Qed.

(** Not oldest first: force_pop() returns window 120 while 100 and 110 wait. *)
Theorem C26_force_pop_order_refuted : exists outs g d g',
  g_run ne_sort gx_g0 [GoAdd (SmScalar 103 7 1) 0 0; GoAdd (SmScalar 113 7 1) 0 0; GoAdd (SmScalar 123 7 1) 0 0] = Ok (outs, g) /\
  g_force_pop ne_sort g = Ok (Some d, g') /\ ad_ts d = 120 /\ map ad_ts (g_list g') = [100; 110].
Proof. eexists _, _, _, _. do 2 (split; [vm_compute; reflexivity|]). vm_compute. auto. Qed.
Print Assumptions C26_force_pop_order_refuted.

(** C27 *)
(** After any history and clear(ts): an idle state (nothing queued, nothing recorded, so C14 and C17 apply from here
    with [g0 := g']), the open window starts at ts cut to the step. *)
Theorem C27_clear_resets_partial : forall ne, nth_element_ok ne -> forall o c rnd ts g0 ops outs g c1 ts1 g',
  0 < so_step (ao_sep o) -> agg_new o c rnd ts = Ok g0 ->
  Forall gop_typed ops -> g_run ne g0 ops = Ok (outs, g) -> g_clear c1 ts1 g = Ok g' ->
  g_idle ne o g' /\ agg_label g' = acc_time (so_step (ao_sep o)) (so_res (ao_sep o)) c1 ts1 /\
  g_enabled g' = g_enabled g /\ g_size g' = 0%nat /\ g_data_size g' = 0%nat.
Proof. exact clear_idle. Qed.
Print Assumptions C27_clear_resets_partial.

(** Without clear a pusher does what the corresponding push does. *)
Theorem C27_pusher_works_partial : forall ne o c rnd ts g0 ops1 outs1 g1 ops2 outs2 g2 h push,
  agg_new o c rnd ts = Ok g0 -> g_run ne g0 ops1 = Ok (outs1, g1) -> g_run ne g1 ops2 = Ok (outs2, g2) ->
  Forall gnot_clear ops1 -> Forall gnot_clear ops2 ->
  g_call_pusher push (g_create_pusher h g1) g2 = ('(_, recs, g3) <- push h g2 ;; Ok (recs, g3)).
Proof. exact live_pusher. Qed.
Print Assumptions C27_pusher_works_partial.

(** After clear every pusher is inert for ever: those made before (wanted) and those made after (the violation). *)
Theorem C27_pushers_after_clear_refuted : forall ne g c ts g1 ops outs g2 gx h push,
  g_clear c ts g = Ok g1 -> g_run ne g1 ops = Ok (outs, g2) ->
  g_call_pusher push (g_create_pusher h gx) g2 = Ok ([], g2).
Proof. exact clear_pushers. Qed.
Print Assumptions C27_pushers_after_clear_refuted.

Example C27_witness : exists outs g g', g_run ne_rev gx_g0 gx_ops = Ok (outs, g) /\ g_clear 0 77 g = Ok g' /\
  g_size g = 1%nat /\ agg_label g' = 70.
Proof. eexists _, _, _. do 2 (split; [vm_compute; reflexivity|]). vm_compute. auto. Qed.

(** Aggregator versions of earlier properties. *)

(** C10: aggregate_current() reports what force_pop() would, up to the choice of retained values. *)
Theorem C10_aggregate_current : forall ne, nth_element_ok ne -> forall o c rnd ts g0 ops outs g,
  0 < so_step (ao_sep o) -> agg_new o c rnd ts = Ok g0 ->
  Forall gop_typed ops -> g_run ne g0 ops = Ok (outs, g) -> s_list (g_sep g) = [] ->
  match g_current ne g, g_force_pop ne g with
  | Ok (Some a), Ok (Some b, _) => ad_info a = ad_info b
  | Ok None, Ok (None, _) => True
  | Ub, Ub => True
  | _, _ => False
  end.
Proof. exact current_force. Qed.
Print Assumptions C10_aggregate_current.

Example C10_aggregate_witness : exists outs g a b g',
  g_run ne_rev gx_g0 [GoAdd (SmArr 105 [5; 1; 4; 2; 3; 6; 9; 8] 12) 0 0] = Ok (outs, g) /\ s_list (g_sep g) = [] /\
  g_current ne_rev g = Ok (Some a) /\ g_force_pop ne_rev g = Ok (Some b, g') /\ ad_count a = 12 /\ ad_count b = 12 /\ p50 (ad_perc b) = 5.
Proof.
  eexists _, _, _, _, _. split; [vm_compute; reflexivity|]. split; [reflexivity|]. split; [vm_compute; reflexivity|].
  split; [vm_compute; reflexivity|]. split; [reflexivity|]. split; reflexivity.
Qed.

(** C14, C15: grouping by windows and order, through handlers, pop and the queue. *)
Theorem C14_aggregator_grouping : forall ne, nth_element_ok ne -> forall o ops g0 outs g,
  0 < so_step (ao_sep o) -> g_idle ne o g0 ->
  Forall gop_typed ops -> Forall gregular ops -> Forall (gcoherent (so_step (ao_sep o)) (so_res (ao_sep o))) ops ->
  g_run ne g0 ops = Ok (outs, g) ->
  let step := so_step (ao_sep o) in
  let l0 := agg_label g0 in
  let acc := recorded step (so_res (ao_sep o)) (g_enabled g0) ops (map out_bool outs) in
  let hs := flat_map out_handler outs in
  let ps := gpopped ops (map out_ptr outs) in
  s_list (g_sep g) = [] /\
  StronglySorted Z.lt (map ad_ts hs) /\ StronglySorted Z.lt (map ad_ts (ps ++ g_list g)) /\
  exists closed recs,
    StronglySorted Z.lt (map fst closed) /\
    (forall w gr, In (w, gr) closed <-> gr = ops_in l0 step w acc /\ gr <> [] /\ w < agg_label g) /\
    Forall2 (fun q d => reported_as ne (so_red (ao_sep o)) (fst q) (snd q) d) closed recs /\
    Permutation recs (hs ++ ps ++ g_list g).
Proof. exact ggroup_public. Qed.
Print Assumptions C14_aggregator_grouping.

Example C14_aggregator_witness : exists outs g, g_idle ne_rev gx_o gx_g0 /\ Forall gop_typed gx_ops /\ Forall gregular gx_ops /\
  Forall (gcoherent (so_step (ao_sep gx_o)) (so_res (ao_sep gx_o))) gx_ops /\ g_run ne_rev gx_g0 gx_ops = Ok (outs, g) /\
  map ad_ts (flat_map out_handler outs ++ gpopped gx_ops (map out_ptr outs) ++ g_list g) = [100; 110; 140; 150] /\
  map ad_count (flat_map out_handler outs ++ gpopped gx_ops (map out_ptr outs) ++ g_list g) = [7; 2; 2; 3].
Proof.
  eexists _, _. split; [exact gx_idle|]. split; [exact gx_typed|]. split; [exact gx_regular|]. split; [exact gx_coherent|].
  split; [vm_compute; reflexivity|]. split; reflexivity.
Qed.

(** C17 *)
Theorem C17_aggregator_conservation : forall ne, nth_element_ok ne -> forall o ops g0 outs g p,
  0 < so_step (ao_sep o) -> g_idle ne o g0 ->
  Forall gop_typed ops -> Forall gnot_clear ops ->
  g_run ne g0 ops = Ok (outs, g) -> g_current ne g = Ok p ->
  let acc := map snd (recorded (so_step (ao_sep o)) (so_res (ao_sep o)) (g_enabled g0) ops (map out_bool outs)) in
  let out := flat_map out_handler outs ++ gpopped ops (map out_ptr outs) ++ g_list g ++ s_list (g_sep g) in
  u64 (sum_count out + match p with Some d => ad_count d | None => 0 end) = u64 (declared acc) /\
  submultiset (flat_map ad_data out) (values acc) /\
  exists groups opn,
    Forall2 (fun q d => reported_as ne (so_red (ao_sep o)) (fst q) (snd q) d) groups out /\
    Permutation (flat_map snd groups ++ opn) acc.
Proof. exact gcons. Qed.
Print Assumptions C17_aggregator_conservation.

Example C17_aggregator_witness : exists outs g p, g_run ne_rev gx_g0 (gx_ops ++ [GoForcePop; GoAdd (SmScalar 173 1 5) 0 0]) = Ok (outs, g) /\
  g_current ne_rev g = Ok (Some p) /\ ad_count p = 5 /\
  sum_count (flat_map out_handler outs ++ gpopped (gx_ops ++ [GoForcePop; GoAdd (SmScalar 173 1 5) 0 0]) (map out_ptr outs) ++ g_list g) = 15.
Proof. eexists _, _, _. do 2 (split; [vm_compute; reflexivity|]). vm_compute. auto. Qed.

(** C18 *)
Theorem C18_aggregator_total : forall ne, nth_element_ok ne -> forall o c rnd ts g0 ops,
  0 < so_step (ao_sep o) <= i64_max -> agg_new o c rnd ts = Ok g0 ->
  Forall gop_typed ops -> Forall (gop_safe (so_step (ao_sep o))) ops ->
  Z.of_nat (length (flat_map gop_values ops)) < two64 ->
  exists outs g, g_run ne g0 ops = Ok (outs, g).
Proof. exact gnew_run_total. Qed.
Print Assumptions C18_aggregator_total.

(** C20: push with a handler against push without (then pop). *)
Theorem C20_aggregator_handler_is_queue : forall ne g ops outs g',
  Forall gop_typed ops -> Forall gpush_h ops ->
  0 < s_step (g_sep g) -> s_list (g_sep g) = [] -> Forall (gcoherent (s_step (g_sep g)) (s_res (g_sep g))) ops ->
  g_run ne g ops = Ok (outs, g') ->
  g_list g' = g_list g /\
  exists outs', g_run ne g (map gpush_no ops) =
      Ok (outs', mk_agg (g_sep g') (g_out g') (g_enabled g') (g_list g ++ flat_map out_handler outs) (g_id g')) /\
    map out_bool outs' = map out_bool outs.
Proof. exact push_is_queue. Qed.
Print Assumptions C20_aggregator_handler_is_queue.
