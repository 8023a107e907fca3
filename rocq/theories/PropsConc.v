(** Properties C60-C64: a registry shared by threads (wrtstat/aggregator/aggregator_registry.cpp,
    wrtstat/aggregator/basic_aggregator.hpp, wrtstat/wrtstat.cpp). *)
From Coq Require Import ZArith List Bool Lia Arith Ascii Permutation.
From Verif Require Import Base SortFacts ModelTypes ModelReducer SpecReducer ModelSeparator SpecSeparator ModelAggregator SpecAggregator
  ModelRegistry SpecRegistry RegFinal ModelConc SpecConc ConcLin ConcNames ConcFinal ConcGiven ConcAlone ConcHandler PropsReducer PropsSeparator PropsAggregator PropsRegistry.
Import ListNotations.
Local Open Scope Z_scope.

(** Two threads, names a (id 8) and b (id 13), pushers of both.  [go t] lets thread [t] go on. *)
Definition kx_pa : rpusher := mk_rpusher 0 (mk_pusher true true).
Definition kx_pb : rpusher := mk_rpusher 1 (mk_pusher true true).
Definition kx (t : nat) (k : rgop) : nat * kop := (t, KOp k).
Definition go (t : nat) : nat * kop := (t, KOp (RgGetName 0)).
Definition kx_start : list (nat * kop) :=
  [kx 0 (RgCreate rx_e na 108); kx 1 (RgCreate rx_e nb 108); kx 1 (RgPusher 8 true); kx 0 (RgPusher 13 true)].
Definition kx_evs (sched : list (nat * kop)) : list event := match k_run ne_rev (k_new rx_o 2) sched with Ok (evs, _) => evs | _ => [] end.
Definition kx_end (sched : list (nat * kop)) : conc := match k_run ne_rev (k_new rx_o 2) sched with Ok (_, c) => c | _ => k_new rx_o 2 end.
Definition kx_ran (sched : list (nat * kop)) : bool := match k_run ne_rev (k_new rx_o 2) sched with Ok _ => true | _ => false end.
Lemma kx_ok sched : kx_ran sched = true -> k_run ne_rev (k_new rx_o 2) sched = Ok (kx_evs sched, kx_end sched).
Proof. unfold kx_ran, kx_evs, kx_end. destruct (k_run _ _ _) as [[evs c]| |]; intros; congruence. Qed.
(** What thread [t]'s calls returned. *)
Definition returns (t : nat) (evs : list event) : list rgout := flat_map (fun e => match e with ERet t' o => if (t' =? t)%nat then [o] else [] | _ => [] end) evs.

(** A push into a, a meter point of b, pop_all and enable, interleaved; a call by id overtaken by del. *)
Definition kx_mix : list (nat * kop) := kx_start ++
  [kx 1 (RgPush kx_pa (SmScalar 103 7 1) 0 0); go 1; go 1; kx 0 (RgPopAll false (fun _ => 125)); go 0;
   (1%nat, KMeter kx_pb 13 (SmScalar 104 9 2) 0 0); go 0; go 1; go 1; kx 1 (RgPush kx_pa (SmScalar 126 8 1) 0 0); go 0; go 1; go 1; go 0; go 0; go 0; go 0; go 0;
   kx 1 (RgEnable true); kx 0 (RgPush kx_pb (SmScalar 127 5 1) 0 0); go 1; go 1; go 0; go 0; go 1; go 1; go 1;
   kx 0 (RgCall 8 (GoAdd (SmScalar 127 3 1) 0 0)); kx 1 (RgDel na); go 0; go 0].

(** C60 *)
(** Whatever the threads do, clear() included, and however they are scheduled, there is one order of effects, each inside
    the call that has it, in which the same calls made one after another on a registry give the same answers and the
    same final registry; [story]: each call consists of the effects its description says and returns what they give.
    Effects on an aggregator that was already deleted are not in that order: see C64. *)
Theorem C60_linearizable : forall ne o threads sched evs c,
  k_run ne (k_new o threads) sched = Ok (evs, c) ->
  a_run ne (rg_new o) (map fst (effects evs)) = Ok (map snd (effects evs), k_reg c) /\
  forall t, story t (of t evs).
Proof. intros ne o threads sched evs c E. pose proof (run_Good ne o threads sched evs c E) as G. split; [apply G|]. intros t. eapply Good_story; eauto. Qed.
Print Assumptions C60_linearizable.

(** A call completed by thread [t] has exactly the effects of its description. *)
Theorem C60_completed : forall ne o threads sched evs c,
  k_run ne (k_new o threads) sched = Ok (evs, c) ->
  forall pre t k body x post, evs = pre ++ EInv t k :: body ++ ERet t x :: post -> quiet t body -> call_ok t k (of t body) x.
Proof. intros ne o threads sched evs c E pre t k body x post EQ Q. eapply completed_call; eauto. eapply run_Good; eauto. Qed.
Print Assumptions C60_completed.

(** A thread inside a call never works on an aggregator that was destroyed. *)
Theorem C60_no_dangling : forall ne o threads sched evs c t p s,
  k_run ne (k_new o threads) sched = Ok (evs, c) ->
  nth_error (k_thr c) t = Some p -> holds s p = true ->
  exists g, exists_obj c s g.
Proof. exact no_dangling. Qed.
Print Assumptions C60_no_dangling.

(** The effects of a whole enable() are what enable() does to a registry nobody else uses. *)
Theorem C60_enable_parts : forall ne o threads sched evs c v,
  k_run ne (k_new o threads) sched = Ok (evs, c) ->
  exists outs, a_run ne (k_reg c) (AFlag v :: map (fun s => AEnableOne s v) (objects (rg_arr (k_reg c)))) = Ok (outs, rg_enable v (k_reg c)).
Proof. exact enable_parts. Qed.
Print Assumptions C60_enable_parts.

(** A call during which no call of another thread takes effect - others may be inside calls - does and answers what it does
    and answers on a registry used by one thread: from the state all effects before it lead to, to the state after its own. *)
Theorem C60_alone : forall ne o threads sched evs c,
  k_run ne (k_new o threads) sched = Ok (evs, c) ->
  forall pre t k body x post, evs = pre ++ EInv t k :: body ++ ERet t x :: post -> quiet t body -> alone t body ->
  exists r0 r1,
    a_run ne (rg_new o) (map fst (effects pre)) = Ok (map snd (effects pre), r0) /\
    a_run ne (rg_new o) (map fst (effects (pre ++ EInv t k :: body))) = Ok (map snd (effects (pre ++ EInv t k :: body)), r1) /\
    does ne k r0 x r1.
Proof. intros ne o threads. exact (call_alone ne o threads). Qed.
Print Assumptions C60_alone.

Definition shown (x : rgout) : list (name * Z * Z) :=
  match x with
  | RNamed l => map (fun q => (fst q, ad_ts (snd q), ad_count (snd q))) l
  | RRecs l => map (fun d => ([], ad_ts d, ad_count d)) l
  | _ => []
  end.
Example C60_witness : k_run ne_rev (k_new rx_o 2) kx_mix = Ok (kx_evs kx_mix, kx_end kx_mix) /\
  map shown (returns 0 (kx_evs kx_mix)) = [[]; []; [(na, 100, 1); (nb, 100, 2)]; []; []; []] /\
  length (effects (kx_evs kx_mix)) = 19%nat /\ k_thr (kx_end kx_mix) = [PIdle; PIdle] /\
  (exists pre post, kx_evs (firstn 9 kx_mix) = pre ++ EInv 0 (KOp (RgPopAll false (fun _ => 125))) :: post) /\
  exists s, nth_error (k_thr (kx_end (firstn 10 kx_mix))) 1 = Some (PLocked kx_pb (SmScalar 104 9 2) 0 0 (Some 13)) /\ holds s (PLocked kx_pb (SmScalar 104 9 2) 0 0 (Some 13)) = true.
Proof.
  split; [apply kx_ok; vm_compute; reflexivity|]. split; [vm_compute; reflexivity|].
  split; [vm_compute; reflexivity|]. split; [vm_compute; reflexivity|]. split.
  - exists (kx_evs (firstn 7 kx_mix)), []. vm_compute. reflexivity.
  - exists 1%nat. vm_compute. auto.
Qed.

(** C61 *)
(** Nothing is lost or counted twice when threads share an aggregator.  For every aggregator ever registered (deleted or
    not): its state is what the calls made on it, in the order they got its mutex, leave behind; so what was recorded
    is what went to handlers, was popped, waits in the queues or is in the open window (C17). *)
Theorem C61_concurrent_conservation : forall ne, nth_element_ok ne -> forall o threads sched evs c s g p,
  Forall (fun q => k_no_clear (snd q)) sched -> Forall (fun q => kopP gop_typed (snd q)) sched -> 0 < so_step (ao_sep (rgo_agg o)) ->
  k_run ne (k_new o threads) sched = Ok (evs, c) -> exists_obj c s g -> g_current ne g = Ok p ->
  exists e now g0 pre pouts, created_in e now evs /\ agg_new (rgo_agg o) (ce_clock e) (ce_rnd e) now = Ok g0 /\ creation e pre /\
    let ops := pre ++ map fst (calls s evs) in
    let outs := pouts ++ map snd (calls s evs) in
    g_run ne g0 ops = Ok (outs, g) /\
    let acc := map snd (recorded (so_step (ao_sep (rgo_agg o))) (so_res (ao_sep (rgo_agg o))) (g_enabled g0) ops (map out_bool outs)) in
    let out := flat_map out_handler outs ++ gpopped ops (map out_ptr outs) ++ g_list g ++ s_list (g_sep g) in
    u64 (sum_count out + match p with Some d => ad_count d | None => 0 end) = u64 (declared acc) /\
    submultiset (flat_map ad_data out) (values acc) /\
    exists groups opn,
      Forall2 (fun q d => reported_as ne (so_red (ao_sep (rgo_agg o))) (fst q) (snd q) d) groups out /\
      Permutation (flat_map snd groups ++ opn) acc.
Proof. exact conc_conservation. Qed.
Print Assumptions C61_concurrent_conservation.

(** After a clear() of the aggregator everything starts again: nothing is held, and what is recorded from then on is what
    is handed over from then on, waits in the queues or is in the open window. *)
Theorem C61_since_clear : forall ne, nth_element_ok ne -> forall o threads sched evs c s g p before ts cl x after,
  Forall (fun q => kopP gop_typed (snd q)) sched -> 0 < so_step (ao_sep (rgo_agg o)) ->
  k_run ne (k_new o threads) sched = Ok (evs, c) -> exists_obj c s g -> g_current ne g = Ok p ->
  calls s evs = before ++ (GoClear ts cl, x) :: after -> Forall gnot_clear (map fst after) ->
  exists e now g0 pre pouts g1, created_in e now evs /\ agg_new (rgo_agg o) (ce_clock e) (ce_rnd e) now = Ok g0 /\ creation e pre /\
    g_run ne g0 (pre ++ map fst (before ++ [(GoClear ts cl, x)])) = Ok (pouts ++ map snd (before ++ [(GoClear ts cl, x)]), g1) /\
    g_size g1 = 0%nat /\ g_data_size g1 = 0%nat /\
    let ops := map fst after in
    let outs := map snd after in
    g_run ne g1 ops = Ok (outs, g) /\
    let acc := map snd (recorded (so_step (ao_sep (rgo_agg o))) (so_res (ao_sep (rgo_agg o))) (g_enabled g1) ops (map out_bool outs)) in
    let out := flat_map out_handler outs ++ gpopped ops (map out_ptr outs) ++ g_list g ++ s_list (g_sep g) in
    u64 (sum_count out + match p with Some d => ad_count d | None => 0 end) = u64 (declared acc) /\
    submultiset (flat_map ad_data out) (values acc) /\
    exists groups opn,
      Forall2 (fun q d => reported_as ne (so_red (ao_sep (rgo_agg o))) (fst q) (snd q) d) groups out /\
      Permutation (flat_map snd groups ++ opn) acc.
Proof. exact since_clear. Qed.
Print Assumptions C61_since_clear.
(** Thread 0 records into a, thread 1 clears a in between, thread 0 closes a window. *)
Definition kx_clear : list (nat * kop) := kx_start ++
  [kx 0 (RgCall 8 (GoAdd (SmScalar 103 7 1) 0 0)); kx 1 (RgCall 8 (GoClear 108 0)); go 0; go 0; go 1; go 1;
   kx 0 (RgCall 8 (GoAdd (SmScalar 104 8 1) 0 0)); go 0; go 0; kx 0 (RgCall 8 (GoAdd (SmScalar 116 9 1) 0 0)); go 0; go 0].
Example C61_since_clear_witness : exists evs c g p before x after, k_run ne_sort (k_new rx_o 2) kx_clear = Ok (evs, c) /\ exists_obj c 0 g /\ g_current ne_sort g = Ok p /\
  calls 0 evs = before ++ (GoClear 108 0, x) :: after /\ Forall gnot_clear (map fst after) /\ Forall (fun q => kopP gop_typed (snd q)) kx_clear /\
  map ad_count (g_list g) = [1] /\ option_map ad_count p = Some 1 /\ length before = 1%nat.
Proof.
  eexists _, _, _, _, [_], _, [_; _]. split; [vm_compute; reflexivity|]. split; [left; exists 2%nat; vm_compute; reflexivity|]. split; [vm_compute; reflexivity|].
  split; [vm_compute; reflexivity|]. split; [repeat constructor|]. split; [|split; [vm_compute; reflexivity|split; reflexivity]].
  repeat (constructor; [first [exact I | intros EI; discriminate EI | intros rd EI; discriminate EI | (intros h || idtac); split; [|exact I]; typed]|]); constructor.
Qed.

Example C61_witness : nth_element_ok ne_sort /\ Forall (fun q => k_no_clear (snd q)) kx_mix /\ Forall (fun q => kopP gop_typed (snd q)) kx_mix /\ 0 < so_step (ao_sep (rgo_agg rx_o)) /\
  exists evs c g p, k_run ne_sort (k_new rx_o 2) kx_mix = Ok (evs, c) /\ exists_obj c 0 g /\ g_current ne_sort g = Ok (Some p) /\ ad_count p = 2 /\
    length (calls 0 evs) = 6%nat /\ forall pos g', nth_error (rg_arr (k_reg c)) pos <> Some (Some (0%nat, g')).
Proof.
  split; [apply ne_sort_ok|]. split; [repeat constructor|]. split; [repeat (constructor; [first [exact I | intros EI; discriminate EI | intros rd EI; discriminate EI | (intros h || idtac); split; [|exact I]; typed]|]); constructor|]. split; [reflexivity|].
  eexists _, _, _, _. split; [vm_compute; reflexivity|]. split; [right; vm_compute; reflexivity|]. split; [vm_compute; reflexivity|].
  split; [reflexivity|]. split; [reflexivity|]. intros [|[|[|[|pos]]]] g' H; vm_compute in H; try discriminate H; destruct pos; discriminate.
Qed.

(** C62 *)
(** Full claim: pop_all (force_pop_all) and enable act on every registered aggregator exactly once, in one instant.
    Proved: exactly once, on those registered when the call started; no aggregator appears or disappears meanwhile. *)
Theorem C62_pop_all_partial : forall ne o threads sched evs c,
  k_run ne (k_new o threads) sched = Ok (evs, c) -> fits o (length (effects evs)) ->
  forall pre t f clk body x post, evs = pre ++ EInv t (KOp (RgPopAll f clk)) :: body ++ ERet t x :: post -> quiet t body ->
  exists r0, a_run ne (rg_new o) (map fst (effects pre)) = Ok (map snd (effects pre), r0) /\ NoDup (visited t body) /\
    forall id, In id (visited t body) <-> exists n s g, registered r0 n id s g.
Proof. exact pop_all_covers. Qed.
Print Assumptions C62_pop_all_partial.

Theorem C62_enable_partial : forall ne o threads sched evs c,
  k_run ne (k_new o threads) sched = Ok (evs, c) -> fits o (length (effects evs)) ->
  forall pre t v body x post, evs = pre ++ EInv t (KOp (RgEnable v)) :: body ++ ERet t x :: post -> quiet t body ->
  exists r0, a_run ne (rg_new o) (map fst (effects pre)) = Ok (map snd (effects pre), r0) /\ NoDup (switched t body) /\
    forall s, In s (switched t body) <-> exists n id g, registered r0 n id s g.
Proof. exact enable_covers. Qed.
Print Assumptions C62_enable_partial.

Example C62_witness : fits rx_o (length (effects (kx_evs kx_mix))) /\
  exists pre body x post, kx_evs kx_mix = pre ++ EInv 0 (KOp (RgPopAll false (fun _ => 125))) :: body ++ ERet 0 x :: post /\ quiet 0 body /\
    visited 0 body = [8; 13] /\
  exists pre2 body2 x2 post2, kx_evs kx_mix = pre2 ++ EInv 1 (KOp (RgEnable true)) :: body2 ++ ERet 1 x2 :: post2 /\ quiet 1 body2 /\ switched 1 body2 = [0%nat; 1%nat].
Proof.
  split; [unfold fits; vm_compute; repeat split; congruence|].
  exists (firstn 16 (kx_evs kx_mix)), (firstn 18 (skipn 17 (kx_evs kx_mix))), (nth 2 (returns 0 (kx_evs kx_mix)) RUnit), (skipn 36 (kx_evs kx_mix)).
  split; [vm_compute; reflexivity|]. split; [vm_compute; repeat constructor; discriminate|]. split; [vm_compute; reflexivity|].
  exists (firstn 39 (kx_evs kx_mix)), (firstn 9 (skipn 40 (kx_evs kx_mix))), RUnit, (skipn 50 (kx_evs kx_mix)).
  split; [vm_compute; reflexivity|]. split; [vm_compute; repeat constructor; discriminate|]. vm_compute; reflexivity.
Qed.

(** One instant is not so.  The other thread pushes into a, then into b; pop_all returns b's sample without a's, which
    none of the three orders of the calls does. *)
Definition kx_torn : list (nat * kop) := kx_start ++
  [kx 0 (RgPopAll false (fun _ => 125)); go 0; go 0; go 0; kx 1 (RgPush kx_pa (SmScalar 103 7 1) 0 0); go 1; go 1; kx 1 (RgPush kx_pb (SmScalar 103 9 1) 0 0); go 1; go 1; go 0; go 0; go 0; go 0].
Definition kx_ops : list rgop := [RgCreate rx_e na 108; RgCreate rx_e nb 108; RgPusher 8 true; RgPusher 13 true].
Definition popped_names (outs : list rgout) : list name := flat_map (fun x => match x with RNamed l => map fst l | _ => [] end) outs.
Definition seq_popped (ops : list rgop) : option (list name) :=
  match rg_run ne_rev (rg_new rx_o) (kx_ops ++ ops) with Ok (outs, _) => Some (popped_names outs) | _ => None end.
Theorem C62_snapshot_refuted : kx_ran kx_torn = true /\ popped_names (returns 0 (kx_evs kx_torn)) = [nb] /\
  let a := RgPush kx_pa (SmScalar 103 7 1) 0 0 in let b := RgPush kx_pb (SmScalar 103 9 1) 0 0 in let pop := RgPopAll false (fun _ => 125) in
  seq_popped [pop; a; b] = Some [] /\ seq_popped [a; pop; b] = Some [na] /\ seq_popped [a; b; pop] = Some [na; nb].
Proof. vm_compute. repeat split; reflexivity. Qed.
Print Assumptions C62_snapshot_refuted.

(** enable(false) while the other thread pushes into a, which is ignored, and then into b, which is recorded: no order of
    the calls does that. *)
Definition kx_half : list (nat * kop) := kx_start ++
  [kx 0 (RgEnable false); go 0; go 0; go 0; kx 1 (RgPush kx_pa (SmScalar 103 7 1) 0 0); go 1; go 1; kx 1 (RgPush kx_pb (SmScalar 103 9 1) 0 0); go 1; go 1; go 0; go 0;
   kx 0 (RgPopAll false (fun _ => 125)); go 0; go 0; go 0; go 0; go 0; go 0; go 0].
Theorem C62_switch_refuted : kx_ran kx_half = true /\ popped_names (returns 0 (kx_evs kx_half)) = [nb] /\ k_thr (kx_end kx_half) = [PIdle; PIdle] /\
  let a := RgPush kx_pa (SmScalar 103 7 1) 0 0 in let b := RgPush kx_pb (SmScalar 103 9 1) 0 0 in let pop := RgPopAll false (fun _ => 125) in
  let off := RgEnable false in
  seq_popped [off; a; b; pop] = Some [] /\ seq_popped [a; off; b; pop] = Some [na] /\ seq_popped [a; b; off; pop] = Some [na; nb].
Proof. vm_compute. repeat split; reflexivity. Qed.
Print Assumptions C62_switch_refuted.

(** C63 *)
(** Full claim: the records a meter of name n delivers to the handler carry the name n.  Proved: if n is not deleted
    between the creation of its aggregator and the end of the meter's push. *)
Theorem C63_names_partial : forall ne o threads sched evs c,
  k_run ne (k_new o threads) sched = Ok (evs, c) -> fits o (length (effects evs)) ->
  forall pre t0 e n now id mid t p x c1 c2 body y post, n <> [] ->
  evs = pre ++ ELin t0 (ADo (RgCreate e n now)) (RId id) :: mid ++ EInv t (KMeter p id x c1 c2) :: body ++ ERet t y :: post ->
  quiet t body -> ~ dels n (mid ++ body) -> exists l, y = RNamed l /\ Forall (fun q => fst q = n) l.
Proof.
  intros ne o threads sched evs c E FI pre t0 e n now id mid t p x c1 c2 body y post HN EQ Q ND.
  eapply (meter_names ne o threads evs c); eauto. eapply run_Good; eauto.
Qed.
Print Assumptions C63_names_partial.

(** The meter of a closes a's window while the other thread deletes b and creates c. *)
Definition kx_named : list (nat * kop) := kx_start ++
  [kx 0 (RgPush kx_pa (SmScalar 103 7 1) 0 0); go 0; go 0; (0%nat, KMeter kx_pa 8 (SmScalar 114 8 1) 0 0); go 0; kx 1 (RgDel nb); kx 1 (RgCreate rx_e nc 115); go 0; go 0].
Example C63_witness : k_run ne_rev (k_new rx_o 2) kx_named = Ok (kx_evs kx_named, kx_end kx_named) /\
  fits rx_o (length (effects (kx_evs kx_named))) /\
  exists mid body y, kx_evs kx_named = [EInv 0 (KOp (RgCreate rx_e na 108))] ++ ELin 0 (ADo (RgCreate rx_e na 108)) (RId 8) ::
      mid ++ EInv 0 (KMeter kx_pa 8 (SmScalar 114 8 1) 0 0) :: body ++ ERet 0 y :: [] /\
    quiet 0 body /\ ~ dels na (mid ++ body) /\ dels nb body /\ shown y = [(na, 100, 1)].
Proof.
  split; [apply kx_ok; vm_compute; reflexivity|]. split; [unfold fits; vm_compute; repeat split; congruence|].
  exists (firstn 14 (skipn 2 (kx_evs kx_named))), (firstn 10 (skipn 17 (kx_evs kx_named))), (nth 3 (returns 0 (kx_evs kx_named)) RUnit).
  split; [vm_compute; reflexivity|]. split; [vm_compute; repeat constructor; discriminate|]. split.
  - intros (t & o & H). vm_compute in H. repeat (destruct H as [H|H]; [discriminate|]). destruct H.
  - split; [|vm_compute; reflexivity]. exists 1%nat, (RBool false). vm_compute. tauto.
Qed.

(** The meter of a is inside the push that closes a's window; the other thread deletes a and creates c, which gets a's
    id; a's window is delivered under the name c. *)
Definition kx_renamed : list (nat * kop) := kx_start ++
  [kx 0 (RgPush kx_pa (SmScalar 103 7 1) 0 0); go 0; go 0; (0%nat, KMeter kx_pa 8 (SmScalar 114 8 1) 0 0); go 0; kx 1 (RgDel na); kx 1 (RgCreate rx_e nc 115); go 0; go 0].
Theorem C63_renamed_refuted : kx_ran kx_renamed = true /\ map shown (returns 0 (kx_evs kx_renamed)) = [[]; []; []; [(nc, 100, 1)]] /\
  nth 5 (returns 1 (kx_evs kx_renamed)) (RId 8) = RId 8.
Proof. vm_compute. auto. Qed.
Print Assumptions C63_renamed_refuted.

(** C64 *)
(** Full claim: once del(n) has returned, nothing pushed through a pusher of n is recorded or delivered.  Proved: a call
    that still reaches the deleted aggregator was overtaken by del, or goes through a pusher while another thread's call
    keeps the aggregator alive; without del there are none. *)
Theorem C64_late_partial : forall ne o threads sched evs c,
  k_run ne (k_new o threads) sched = Ok (evs, c) ->
  forall pre t a x post, evs = pre ++ ELate t a x :: post -> late_ok t a pre.
Proof. intros ne o threads sched evs c E. eapply go_lates. eapply run_Good; eauto. Qed.
Print Assumptions C64_late_partial.
Theorem C64_no_del_partial : forall ne o threads sched evs c,
  Forall (fun q => k_no_del (snd q)) sched ->
  k_run ne (k_new o threads) sched = Ok (evs, c) -> forall t a x, ~ In (ELate t a x) evs.
Proof. exact no_late. Qed.
Print Assumptions C64_no_del_partial.

(** Thread 0 is inside a push; thread 1 deletes a and, after del returned, pushes through its own pusher of a: the sample
    is taken and closes the window, which is delivered. *)
Definition kx_undead : list (nat * kop) := kx_start ++
  [kx 0 (RgPush kx_pa (SmScalar 103 7 1) 0 0); kx 1 (RgDel na); kx 1 (RgPush kx_pa (SmScalar 114 8 1) 0 0); go 0; go 1; go 0; go 1].
Theorem C64_after_del_refuted : kx_ran kx_undead = true /\ map shown (returns 1 (kx_evs kx_undead)) = [[]; []; []; [([], 100, 1)]] /\
  exists pre post d, kx_evs kx_undead = pre ++ ERet 1 d :: EInv 1 (KOp (RgPush kx_pa (SmScalar 114 8 1) 0 0)) :: post /\ existsb is_del pre = true /\
    exists x, In (ELate 1 (ADo (RgPush kx_pa (SmScalar 114 8 1) 0 0)) x) post.
Proof.
  split; [vm_compute; reflexivity|]. split; [vm_compute; reflexivity|].
  exists (firstn 15 (kx_evs kx_undead)), (skipn 17 (kx_evs kx_undead)), (nth 2 (returns 1 (kx_evs kx_undead)) RUnit).
  split; [vm_compute; reflexivity|]. split; [vm_compute; reflexivity|].
  exists (nth 3 (returns 1 (kx_evs kx_undead)) RUnit). vm_compute. tauto.
Qed.
Print Assumptions C64_after_del_refuted.

Example C64_witness : k_run ne_rev (k_new rx_o 2) kx_mix = Ok (kx_evs kx_mix, kx_end kx_mix) /\
  (exists pre t a x post, kx_evs kx_mix = pre ++ ELate t a x :: post) /\
  Forall (fun q => k_no_del (snd q)) kx_torn /\
  k_run ne_rev (k_new rx_o 2) kx_torn = Ok (kx_evs kx_torn, kx_end kx_torn) /\ length (effects (kx_evs kx_torn)) = 11%nat.
Proof.
  split; [apply kx_ok; vm_compute; reflexivity|]. split.
  - exists (firstn 55 (kx_evs kx_mix)), 0%nat, (ADo (RgCall 8 (GoAdd (SmScalar 127 3 1) 0 0))), (nth 5 (returns 0 (kx_evs kx_mix)) RUnit), (skipn 56 (kx_evs kx_mix)).
    vm_compute. reflexivity.
  - split; [repeat constructor|]. split; [apply kx_ok; vm_compute; reflexivity|]. vm_compute. reflexivity.
Qed.

(** C65 *)
(** A meter's report that closes windows keeps its aggregator to itself until the handler has had them: between the
    meter's call on the aggregator and the next call on that aggregator, by anyone, the handler has returned.  So windows are delivered in the
    order in which they were closed, and handlers of one name never overlap. *)
Theorem C65_handler_alone : forall ne o threads sched evs c,
  k_run ne (k_new o threads) sched = Ok (evs, c) ->
  forall pre t p id x c1 c2 s g a mid t' g' b post,
  evs = pre ++ EObj t s g a :: mid ++ EObj t' s g' b :: post -> inside t (KMeter p id x c1 c2) pre -> out_handler a <> [] ->
  exists l, In (EGiven t l) mid.
Proof. intros ne o threads. exact (handler_alone ne o threads). Qed.
Print Assumptions C65_handler_alone.

(** What a completed report returns is what its handler was given, in one call of the handler; no other call has its handler called. *)
Theorem C65_given : forall ne o threads sched evs c,
  k_run ne (k_new o threads) sched = Ok (evs, c) ->
  forall pre t k body x post,
  evs = pre ++ EInv t k :: body ++ ERet t x :: post -> quiet t body ->
  report_says t k body x.
Proof. intros ne o threads. exact (given_says ne o threads). Qed.
Print Assumptions C65_given.

(** Two meters of a: the second one is made to wait while the first one's handler runs. *)
Definition kx_two : list (nat * kop) := kx_start ++
  [kx 0 (RgPush kx_pa (SmScalar 103 7 1) 0 0); go 0; go 0; (0%nat, KMeter kx_pa 8 (SmScalar 114 8 1) 0 0); go 0;
   (1%nat, KMeter kx_pa 8 (SmScalar 125 9 1) 0 0); go 1; go 1; go 0; go 1; go 1; go 0; go 1].
Example C65_witness : k_run ne_rev (k_new rx_o 2) kx_two = Ok (kx_evs kx_two, kx_end kx_two) /\
  map shown (returns 0 (kx_evs kx_two)) = [[]; []; []; [(na, 100, 1)]] /\ map shown (returns 1 (kx_evs kx_two)) = [[]; []; [(na, 110, 1)]] /\
  exists pre s g a mid g' b post, kx_evs kx_two = pre ++ EObj 0 s g a :: mid ++ EObj 1 s g' b :: post /\
    inside 0 (KMeter kx_pa 8 (SmScalar 114 8 1) 0 0) pre /\ out_handler a <> [] /\ length mid = 4%nat.
Proof.
  split; [apply kx_ok; vm_compute; reflexivity|]. split; [vm_compute; reflexivity|]. split; [vm_compute; reflexivity|].
  pose (d := (GoPop, mk_sout None [] None)). pose (cs := calls 0 (kx_evs kx_two)).
  exists (firstn 17 (kx_evs kx_two)), 0%nat, (fst (nth 1 cs d)), (snd (nth 1 cs d)), (firstn 4 (skipn 18 (kx_evs kx_two))),
    (fst (nth 2 cs d)), (snd (nth 2 cs d)), (skipn 23 (kx_evs kx_two)).
  split; [vm_compute; reflexivity|]. split; [|split; [vm_compute; discriminate|vm_compute; reflexivity]].
  exists (firstn 16 (kx_evs kx_two)), []. split; [vm_compute; reflexivity|constructor].
Qed.

Example C65_given_witness : k_run ne_rev (k_new rx_o 2) kx_two = Ok (kx_evs kx_two, kx_end kx_two) /\
  exists pre body x post, kx_evs kx_two = pre ++ EInv 0 (KMeter kx_pa 8 (SmScalar 114 8 1) 0 0) :: body ++ ERet 0 x :: post /\
    quiet 0 body /\ shown x = [(na, 100, 1)] /\ map (fun l => shown (RNamed l)) (given_to 0 body) = [[(na, 100, 1)]].
Proof.
  split; [apply kx_ok; vm_compute; reflexivity|].
  pose (tl := skipn 17 (kx_evs kx_two)).
  pose (n := (fix go (l : list event) : nat := match l with ERet 0 _ :: _ => O | _ :: l' => S (go l') | [] => O end) tl).
  exists (firstn 16 (kx_evs kx_two)), (firstn n tl), (nth 3 (returns 0 (kx_evs kx_two)) RUnit), (skipn (S n) tl).
  split; [vm_compute; reflexivity|]. split; [|split; vm_compute; reflexivity].
  apply Forall_forall. intros e H. vm_compute in H. repeat (destruct H as [<-|H]; [simpl; try exact I; discriminate|]). destruct H.
Qed.

(** Thread 1 has begun a push to a and not got any further when thread 0 pops everything. *)
Definition kx_alone : list (nat * kop) := kx_start ++
  [kx 0 (RgCall 8 (GoAdd (SmScalar 103 7 1) 0 0)); go 0; go 0; kx 0 (RgCall 8 (GoAdd (SmScalar 114 7 1) 0 0)); go 0; go 0;
   kx 1 (RgPush kx_pa (SmScalar 115 9 1) 0 0); kx 0 (RgPopAll false (fun _ => 118))] ++ repeat (go 0) 8 ++ [go 1; go 1].
Definition kx_b : nat :=
  (fix go (l : list event) : nat := match l with EInv 0 (KOp (RgPopAll _ _)) :: _ => O | _ :: l' => S (go l') | [] => O end) (kx_evs kx_alone).
Definition kx_tl : list event := skipn (S kx_b) (kx_evs kx_alone).
Definition kx_n : nat := (fix go (l : list event) : nat := match l with ERet 0 _ :: _ => O | _ :: l' => S (go l') | [] => O end) kx_tl.
Definition kx_x : rgout := match nth_error kx_tl kx_n with Some (ERet _ x) => x | _ => RUnit end.
Definition alone_0 (e : event) : bool :=
  match e with
  | EInv t _ => negb (t =? 0)%nat
  | ELin t a _ => (t =? 0)%nat && match a with AHeld _ _ _ _ => false | _ => true end
  | ELate t _ _ => negb (t =? 0)%nat
  | _ => true
  end.
Lemma alone_0_ok l : forallb alone_0 l = true -> quiet 0 l /\ alone 0 l.
Proof.
  intros H. rewrite forallb_forall in H. split; apply Forall_forall; intros e I; specialize (H e I); destruct e; simpl in *; auto.
  - apply Bool.negb_true_iff, Nat.eqb_neq in H. exact H.
  - apply andb_prop in H as [H1 H2]. apply Nat.eqb_eq in H1. split; [exact H1|]. destruct a; auto. discriminate.
  - apply Bool.negb_true_iff, Nat.eqb_neq in H. exact H.
Qed.
Lemma kx_split_ok : kx_evs kx_alone = firstn kx_b (kx_evs kx_alone) ++ EInv 0 (KOp (RgPopAll false (fun _ => 118))) :: firstn kx_n kx_tl ++ ERet 0 kx_x :: skipn (S kx_n) kx_tl.
Proof. vm_compute. reflexivity. Qed.
Lemma kx_pre_ok : firstn kx_b (kx_evs kx_alone) = firstn (kx_b - 1) (kx_evs kx_alone) ++ EInv 1 (KOp (RgPush kx_pa (SmScalar 115 9 1) 0 0)) :: [].
Proof. vm_compute. reflexivity. Qed.
Example C60_alone_witness : k_run ne_rev (k_new rx_o 2) kx_alone = Ok (kx_evs kx_alone, kx_end kx_alone) /\
  exists pre body x post, kx_evs kx_alone = pre ++ EInv 0 (KOp (RgPopAll false (fun _ => 118))) :: body ++ ERet 0 x :: post /\
    quiet 0 body /\ alone 0 body /\ inside 1 (KOp (RgPush kx_pa (SmScalar 115 9 1) 0 0)) pre /\ shown x = [(na, 100, 1)] /\ (0 < length post)%nat.
Proof.
  split; [apply kx_ok; vm_compute; reflexivity|].
  exists (firstn kx_b (kx_evs kx_alone)), (firstn kx_n kx_tl), kx_x, (skipn (S kx_n) kx_tl).
  split; [exact kx_split_ok|].
  assert (A : forallb alone_0 (firstn kx_n kx_tl) = true) by (vm_compute; reflexivity).
  destruct (alone_0_ok _ A) as [Q L]. split; [exact Q|]. split; [exact L|]. split.
  - rewrite kx_pre_ok. exists (firstn (kx_b - 1) (kx_evs kx_alone)), []. split; [reflexivity|constructor].
  - split; [vm_compute; reflexivity|]. apply Nat.ltb_lt. vm_compute. reflexivity.
Qed.
