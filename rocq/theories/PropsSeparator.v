(** Properties C14-C20: one separator object (wrtstat/aggregator/separator.cpp).
    [ops] is an arbitrary sequence of public calls on a separator constructed with options [so], starting in any idle
    state (new, cleared or emptied); every call carries its own clock readings; [outs] are the observable results.  [accepted] lists the samples for which add/push
    returned true, with the time they are accounted to. *)
From Coq Require Import ZArith List Bool Permutation Lia Sorted.
From Verif Require Import Base SortFacts ModelTypes ModelAvg ModelReducer SpecReducer ModelSeparator SpecSeparator
  SepProofs SepSpecProofs SepRun SepSafe PropsReducer.
Import ListNotations.
Local Open Scope Z_scope.

(** Example history: step 10, first window starts at 100; three windows closed (one by separate with a handler, one
    empty window skipped), one late sample rejected, one record popped, one window open. *)
Definition sx_o : sopts := mk_sopts ex_o 10 RSeconds 0.
Definition sx_ops : list sop :=
  [SoAdd (SmScalar 103 7 1) 0 0; SoAdd (SmArr 105 [1; 2; 3] 4) 0 0; SoPush (SmScalar 117 9 2) 0 0;
   SoAdd (SmScalar 104 5 1) 0 0; SoPeek; SoSeparate 121 true false 0; SoAdd (SmList 0 [4; 4]) 147 0; SoPop;
   SoAdd (SmRed (mk_rdata (mk_rinfo 155 3 1 2 9 3) [2; 9])) 0 0; SoSeparate 160 false false 0; SoPop;
   SoPush (SmScalar 172 6 1) 0 0].
Definition sx_s0 : sep := match sep_new sx_o 0 0 108 with Ok s => s | _ => mk_sep (reducer_new ex_o) 1 0 RNone [] end.
Example sx_new : sep_new sx_o 0 0 108 = Ok sx_s0 /\ sep_label sx_s0 = 100. Proof. vm_compute. auto. Qed.
Example sx_idle : idle ne_rev sx_o sx_s0.
Proof. eapply new_idle; [reflexivity|]. apply sx_new. Qed.
(** Idle states also arise later: here after force_pop and after clear. *)
Example sx_idle2 : exists outs s, s_run ne_rev sx_s0 [SoAdd (SmScalar 103 7 1) 0 0; SoForcePop; SoAdd (SmScalar 130 7 1) 0 0; SoClear 77 0] = Ok (outs, s)
  /\ idle ne_rev sx_o s /\ sep_label s = 70.
Proof.
  eexists _, _. split; [vm_compute; reflexivity|]. split; [|reflexivity].
  exists 0, 0, 108, sx_s0. eexists _, _. split; [apply sx_new|].
  split; [|split; [instantiate (2 := [SoAdd (SmScalar 103 7 1) 0 0; SoForcePop; SoAdd (SmScalar 130 7 1) 0 0; SoClear 77 0]);
    vm_compute; reflexivity|split; vm_compute; reflexivity]].
  repeat (constructor; [first [exact I | typed]|]). constructor.
Qed.
Example sx_typed : Forall sop_typed sx_ops.
Proof. repeat (constructor; [first [exact I | split; [|exact I]; typed | typed]|]). constructor. Qed.
Example sx_regular : Forall regular sx_ops. Proof. repeat (constructor; [exact I|]). constructor. Qed.
Example sx_coherent : Forall (coherent 10 RSeconds) sx_ops.
Proof. repeat (constructor; [first [exact I | reflexivity]|]). constructor. Qed.
Example sx_run : exists outs s, s_run ne_rev sx_s0 sx_ops = Ok (outs, s) /\
  map ad_ts (flat_map out_handler outs) = [100; 110] /\
  map ad_ts (popped sx_ops (map out_ptr outs)) = [140] /\ map ad_ts (s_list s) = [150] /\
  map fst (accepted 10 RSeconds sx_ops (map out_bool outs)) = [100; 100; 110; 140; 150; 170] /\
  sep_label s = 170.
Proof. eexists _, _. split; [vm_compute; reflexivity|]. vm_compute. auto 10. Qed.

(** C14 *)
(** The published records are exactly one per non-empty window that ended, each holding exactly the samples whose
    time lies in that window, in arrival order. *)
Theorem C14_grouping : forall ne, nth_element_ok ne -> forall so ops s0 outs s,
  0 < so_step so -> idle ne so s0 ->
  Forall sop_typed ops -> Forall regular ops -> Forall (coherent (so_step so) (so_res so)) ops ->
  s_run ne s0 ops = Ok (outs, s) ->
  let l0 := sep_label s0 in
  let acc := accepted (so_step so) (so_res so) ops (map out_bool outs) in
  exists closed recs,
    StronglySorted Z.lt (map fst closed) /\
    (forall w g, In (w, g) closed <-> g = ops_in l0 (so_step so) w acc /\ g <> [] /\ w < sep_label s) /\
    Forall2 (fun q a => record_of ne (so_red so) (fst q) (snd q) a) closed recs /\
    Permutation recs (flat_map out_handler outs ++ popped ops (map out_ptr outs) ++ s_list s).
Proof. exact grouping. Qed.
Print Assumptions C14_grouping.

(** The open window holds the remaining accepted samples. *)
Theorem C14_open_window : forall ne, nth_element_ok ne -> forall so ops s0 outs s p,
  0 < so_step so -> idle ne so s0 ->
  Forall sop_typed ops -> Forall regular ops -> Forall (coherent (so_step so) (so_res so)) ops ->
  s_run ne s0 ops = Ok (outs, s) -> s_get_current ne s = Ok p ->
  let g := ops_in (sep_label s0) (so_step so) (sep_label s)
             (accepted (so_step so) (so_res so) ops (map out_bool outs)) in
  match p with
  | None => g = []
  | Some a => g <> [] /\ ad_ts a = sep_label s /\ exists b, record_of ne (so_red so) (sep_label s) g b /\ same_summary a b
  end.
Proof. exact grouping_open. Qed.
Print Assumptions C14_open_window.

(** A window that starts at [w] contains exactly the times from w to w+step-1, and starts are congruent modulo step. *)
Theorem C14_window_of : forall l0 step t w, 0 < step ->
  (window_of l0 step t = w <-> w <= t < w + step /\ exists k, w = l0 + k * step).
Proof. exact window_of_char. Qed.
Print Assumptions C14_window_of.

(** The run of [sx_ops] meets the hypotheses: four windows closed, one open, the sample at 104 rejected, nothing in 120-139 and 160-169. *)
Example C14_witness : exists outs s p, idle ne_rev sx_o sx_s0 /\ Forall sop_typed sx_ops /\ Forall regular sx_ops /\
  Forall (coherent (so_step sx_o) (so_res sx_o)) sx_ops /\ s_run ne_rev sx_s0 sx_ops = Ok (outs, s) /\ s_get_current ne_rev s = Ok (Some p) /\
  map (fun w => length (ops_in 100 10 w (accepted 10 RSeconds sx_ops (map out_bool outs)))) [100; 110; 120; 140; 150; 160; 170] =
    [2; 1; 0; 1; 1; 0; 1]%nat /\
  map ad_count (flat_map out_handler outs ++ popped sx_ops (map out_ptr outs) ++ s_list s) = [5; 2; 2; 3] /\ ad_ts p = 170.
Proof.
  eexists _, _, _. split; [exact sx_idle|]. split; [exact sx_typed|]. split; [exact sx_regular|]. split; [exact sx_coherent|].
  split; [vm_compute; reflexivity|]. split; [vm_compute; reflexivity|]. vm_compute. auto.
Qed.

(** C15 *)
Theorem C15_strictly_increasing : forall ne, nth_element_ok ne -> forall so ops s0 outs s,
  0 < so_step so -> idle ne so s0 ->
  Forall sop_typed ops -> Forall regular ops -> Forall (coherent (so_step so) (so_res so)) ops ->
  s_run ne s0 ops = Ok (outs, s) ->
  StronglySorted Z.lt (map ad_ts (flat_map out_handler outs)) /\
  StronglySorted Z.lt (map ad_ts (popped ops (map out_ptr outs) ++ s_list s)).
Proof. exact grouping_order. Qed.
Print Assumptions C15_strictly_increasing.

(** From any reachable state with an empty queue, also with force_pop and incoherent times: what is published from
    now on is in order, aligned, not before the current window and not after the last one. *)
Theorem C15_order_alignment : forall ne, nth_element_ok ne ->
  forall so c rnd ts ops1 ops2 s0 outs1 s1 outs2 s2, 0 < so_step so -> sep_new so c rnd ts = Ok s0 ->
  Forall sop_typed ops1 -> Forall sop_typed ops2 -> Forall not_clear ops2 ->
  s_run ne s0 ops1 = Ok (outs1, s1) -> s_run ne s1 ops2 = Ok (outs2, s2) -> s_list s1 = [] ->
  let recs := flat_map out_handler outs2 ++ popped ops2 (map out_ptr outs2) ++ s_list s2 in
  StronglySorted Z.le (map ad_ts (flat_map out_handler outs2)) /\
  StronglySorted Z.le (map ad_ts (popped ops2 (map out_ptr outs2) ++ s_list s2)) /\
  (forall a, In a recs -> sep_label s1 <= ad_ts a <= sep_label s2 /\ exists k, ad_ts a = sep_label s1 + k * so_step so).
Proof. exact order_run. Qed.
Print Assumptions C15_order_alignment.

(** The start of the open window is the latest window of any time shown so far. *)
Theorem C15_current_window : forall ne, nth_element_ok ne -> forall so ops s0 outs s,
  0 < so_step so -> idle ne so s0 ->
  Forall sop_typed ops -> Forall regular ops -> Forall (coherent (so_step so) (so_res so)) ops ->
  s_run ne s0 ops = Ok (outs, s) ->
  is_max (sep_label s) (sep_label s0 ::
    map (window_of (sep_label s0) (so_step so)) (flat_map (shown_time (so_step so) (so_res so)) ops)).
Proof. exact grouping_cur. Qed.
Print Assumptions C15_current_window.

(** From the end of [sx_ops], popped empty, also with force_pop and a time that the clock overrides. *)
Example C15_witness : exists outs1 s1 outs2 s2,
  s_run ne_rev sx_s0 (sx_ops ++ [SoPop]) = Ok (outs1, s1) /\ s_list s1 = [] /\ sep_label s1 = 170 /\
  s_run ne_rev s1 [SoForcePop; SoAdd (SmScalar 175 1 1) 0 0; SoAdd (SmScalar 5 1 1) 207 183; SoAdd (SmScalar 222 1 1) 0 0; SoPop] = Ok (outs2, s2) /\
  map ad_ts (popped [SoForcePop; SoAdd (SmScalar 175 1 1) 0 0; SoAdd (SmScalar 5 1 1) 207 183; SoAdd (SmScalar 222 1 1) 0 0; SoPop] (map out_ptr outs2)) = [170; 170] /\
  sep_label s2 = 220.
Proof.
  eexists _, _, _, _. split; [vm_compute; reflexivity|]. split; [reflexivity|]. split; [reflexivity|]. split; [vm_compute; reflexivity|].
  split; reflexivity.
Qed.

(** C16 *)
(** In any state: add/push answers false exactly when the sample's time precedes the start of the open window, and
    then it publishes nothing and changes nothing. *)
Theorem C16_late_rejected : forall ne op x c1 c2 s out s' cur,
  op = SoAdd x c1 c2 \/ op = SoPush x c1 c2 -> 0 < s_step s -> coherent (s_step s) (s_res s) op ->
  s_current_time s = Ok cur -> s_call ne op s = Ok (out, s') ->
  (out_bool out = Some false <-> acc_time (s_step s) (s_res s) c1 (sm_ts x) < cur) /\
  (out_bool out <> Some false -> out_bool out = Some true) /\
  (out_bool out = Some false -> out_handler out = [] /\ s' = s).
Proof. exact call_late. Qed.
Print Assumptions C16_late_rejected.

Example C16_witness : exists s1 out s2,
  s_run ne_rev sx_s0 (firstn 3 sx_ops) = Ok (fst s1, snd s1) /\
  s_call ne_rev (SoPush (SmScalar 104 5 1) 0 0) (snd s1) = Ok (out, s2) /\
  s_current_time (snd s1) = Ok 110 /\ out_bool out = Some false.
Proof. eexists (_, _), _, _. split; [vm_compute; reflexivity|]. vm_compute. auto. Qed.

(** Without coherence (explicit time below the step, a clock, and an open window not far from the epoch) the rejected
    sample does have an effect: it closes windows. *)
Theorem C16_incoherent_refuted : exists s0 out1 s1 out2 s2,
  sep_new sx_o 0 0 15 = Ok s0 /\ s_call ne_sort (SoAdd (SmScalar 17 1 1) 0 0) s0 = Ok (out1, s1) /\
  s_call ne_sort (SoAdd (SmScalar 5 2 1) 40 50) s1 = Ok (out2, s2) /\
  out_bool out2 = Some false /\ s_current_time s1 = Ok 10 /\ s_current_time s2 = Ok 50 /\ length (s_list s2) = 1%nat.
Proof. eexists _, _, _, _, _. do 3 (split; [vm_compute; reflexivity|]). vm_compute. auto 10. Qed.
Print Assumptions C16_incoherent_refuted.

(** C17 *)
(** Over any history without clear (force_pop included): the published records partition the accepted samples that
    are not in the open window; counts add up and no value is published twice. *)
Theorem C17_conservation : forall ne, nth_element_ok ne -> forall so ops s0 outs s p,
  0 < so_step so -> idle ne so s0 ->
  Forall sop_typed ops -> Forall not_clear ops ->
  s_run ne s0 ops = Ok (outs, s) -> s_get_current ne s = Ok p ->
  let acc := map snd (accepted (so_step so) (so_res so) ops (map out_bool outs)) in
  let out := flat_map out_handler outs ++ popped ops (map out_ptr outs) ++ s_list s in
  u64 (sum_count out + match p with Some a => ad_count a | None => 0 end) = u64 (declared acc) /\
  submultiset (flat_map ad_data out) (values acc) /\
  exists groups opn,
    Forall2 (fun q a => record_of ne (so_red so) (fst q) (snd q) a) groups out /\
    Permutation (flat_map snd groups ++ opn) acc.
Proof. exact cons_sep. Qed.
Print Assumptions C17_conservation.

Example C17_witness : exists outs s p, s_run ne_rev sx_s0 (sx_ops ++ [SoForcePop; SoForcePop; SoAdd (SmScalar 173 1 5) 0 0]) = Ok (outs, s) /\
  s_get_current ne_rev s = Ok (Some p) /\ ad_count p = 5 /\
  sum_count (flat_map out_handler outs ++ popped (sx_ops ++ [SoForcePop; SoForcePop; SoAdd (SmScalar 173 1 5) 0 0]) (map out_ptr outs) ++ s_list s) = 13.
Proof. eexists _, _, _. do 2 (split; [vm_compute; reflexivity|]). vm_compute. auto. Qed.

(** C18 *)
(** Every history of typed calls with safe times and values runs without overflow, division by zero or an endless
    loop. *)
Theorem C18_total : forall ne, nth_element_ok ne -> forall so c rnd ts s0 ops,
  0 < so_step so <= i64_max -> sep_new so c rnd ts = Ok s0 ->
  Forall sop_typed ops -> Forall (sop_safe (so_step so)) ops ->
  Z.of_nat (length (flat_map sop_values ops)) < two64 ->
  exists outs s, s_run ne s0 ops = Ok (outs, s).
Proof. exact new_run_total. Qed.
Print Assumptions C18_total.

Theorem C18_construction : forall so c rnd ts,
  0 < so_step so <= i64_max -> time_ok (so_step so) ts -> time_ok (so_step so) c ->
  so_soiled so = 0 \/ (i64_min + 2 ^ 62 <= ts /\ i64_min + 2 ^ 62 <= c /\ 0 <= rnd < 2 ^ 31 /\ i64 (so_soiled so)) ->
  exists s, sep_new so c rnd ts = Ok s.
Proof. exact new_total. Qed.
Print Assumptions C18_construction.

(** The loop needs no more than [sep_fuel] rounds: more fuel changes nothing. *)
Theorem C18_fuel_independent : forall ne step ts next r fuel, step <> 0 -> i64 next ->
  (sep_fuel step ts next <= fuel)%nat ->
  sep_loop ne fuel step ts next r = sep_loop ne (sep_fuel step ts next) step ts next r.
Proof. exact fuel_independent. Qed.
Print Assumptions C18_fuel_independent.

(** Step 0: every call that looks at the time divides by zero. *)
Theorem C18_step_zero_refuted : forall ne op s, s_step s = 0 ->
  match op with SoAdd _ _ _ | SoSeparate _ _ _ _ | SoClear _ _ => s_call ne op s = Ub | _ => True end.
Proof. exact step_zero. Qed.
Print Assumptions C18_step_zero_refuted.

(** Negative step: a sample that is due never returns; the loop ends in signed overflow, whatever the fuel. *)
Theorem C18_step_negative_refuted : forall ne, nth_element_ok ne -> forall o ops r step ts next fuel,
  Forall op_typed ops -> r_run ne (reducer_new o) ops = Ok r ->
  step < 0 -> i64 next -> next <= ts ->
  (forall p, sep_loop ne fuel step ts next r <> Ok p) /\
  sep_loop ne (sep_fuel step ts next) step ts next r = Ub.
Proof. exact step_negative. Qed.
Print Assumptions C18_step_negative_refuted.

(** Sharpness of the time bound: a time within one step of INT64_MAX overflows. *)
Theorem C18_overflow_refuted : exists s0, sep_new sx_o 0 0 (i64_max - 30) = Ok s0 /\
  s_call ne_sort (SoAdd (SmScalar i64_max 1 1) 0 0) s0 = Ub.
Proof. eexists. split; [vm_compute; reflexivity|]. vm_compute. reflexivity. Qed.
Print Assumptions C18_overflow_refuted.

Example C18_witness : Forall (sop_safe 10) sx_ops.
Proof.
  repeat (constructor; [simpl; unfold op_safe, val_safe, time_ok, i64_min, i64_max; simpl; repeat split; try lia; repeat constructor; lia|]).
  constructor.
Qed.

(** C19 *)
(** With resolution none, or a time of at least one step in magnitude, the outcome does not depend on the clock. *)
Theorem C19_clock_independent : forall ne x c1 c2 c1' c2' s, 0 < s_step s ->
  res_none (s_res s) = true \/ s_step s <= Z.abs (sm_ts x) ->
  s_call ne (SoAdd x c1 c2) s = s_call ne (SoAdd x c1' c2') s /\
  s_call ne (SoPush x c1 c2) s = s_call ne (SoPush x c1' c2') s.
Proof. exact call_clock. Qed.
Print Assumptions C19_clock_independent.

(** Under the same condition the time that closes windows is the sample's own. *)
Theorem C19_coherent : forall step res x c1 c2, 0 < step -> step <= Z.abs (sm_ts x) ->
  coherent step res (SoAdd x c1 c2) /\ coherent step res (SoPush x c1 c2).
Proof. exact coherent_explicit. Qed.
Print Assumptions C19_coherent.

Example C19_witness : exists o s, s_step sx_s0 <= Z.abs (sm_ts (SmScalar 134 7 1)) /\
  s_call ne_rev (SoAdd (SmScalar 134 7 1) 0 0) sx_s0 = Ok (o, s) /\ s_call ne_rev (SoAdd (SmScalar 134 7 1) 999 77) sx_s0 = Ok (o, s) /\
  out_bool o = Some true /\ sep_label s = 130.
Proof.
  eexists _, _. split; [vm_compute; discriminate|]. split; [vm_compute; reflexivity|]. split; [vm_compute; reflexivity|]. split; reflexivity.
Qed.

(** An explicit time below the step is at the mercy of the clock: same state, same call, different answers. *)
Theorem C19_small_time_refuted : exists s o1 s1 o2 s2,
  sep_new sx_o 0 0 5 = Ok s /\
  s_call ne_sort (SoAdd (SmScalar 5 1 1) 0 0) s = Ok (o1, s1) /\ out_bool o1 = Some true /\
  s_call ne_sort (SoAdd (SmScalar 5 1 1) 0 60) s = Ok (o2, s2) /\ out_bool o2 = Some false.
Proof.
  eexists _, _, _, _, _. do 2 (split; [vm_compute; reflexivity|]). split; [reflexivity|].
  split; [vm_compute; reflexivity|]. reflexivity.
Qed.
Print Assumptions C19_small_time_refuted.

(** C20 *)
(** Handler mode against queue mode, from any state: same answers; the queue receives, in order, exactly the records
    the handler was given; nothing else differs. *)
Theorem C20_handler_is_queue : forall ne ops s outs s', Forall with_handler ops ->
  s_run ne s ops = Ok (outs, s') ->
  s_list s' = s_list s /\
  exists outs', s_run ne s (map without_handler ops) =
                  Ok (outs', mk_sep (s_red s') (s_step s') (s_next s') (s_res s') (s_list s ++ flat_map out_handler outs)) /\
                map out_bool outs' = map out_bool outs.
Proof. exact handler_queue. Qed.
Print Assumptions C20_handler_is_queue.

Example C20_witness : exists outs s', s_run ne_rev sx_s0
    [SoPush (SmScalar 103 7 1) 0 0; SoPush (SmScalar 117 9 2) 0 0; SoSeparate 121 true false 0; SoPush (SmScalar 102 9 2) 0 0] = Ok (outs, s') /\
  map ad_ts (flat_map out_handler outs) = [100; 110].
Proof. eexists _, _. split; [vm_compute; reflexivity|]. vm_compute. auto. Qed.
