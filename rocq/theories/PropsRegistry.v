(** Properties C28-C34: aggregator_registry and wrtstat (wrtstat/aggregator/aggregator_registry.cpp,
    wrtstat/system/dict.hpp, wrtstat/wrtstat.cpp). *)
From Coq Require Import ZArith List Bool Permutation Lia Arith Ascii.
From Verif Require Import Base SortFacts ModelTypes ModelAvg ModelReducer SpecReducer ModelSeparator SpecSeparator
  ModelAggregator SpecAggregator ModelRegistry SpecRegistry RegProofs RegFinal PropsReducer PropsSeparator PropsAggregator.
Import ListNotations.
Local Open Scope Z_scope.

(** Example: ids 8, 13, 18, ...; three names, one deleted and its id reused, a foreign-free history. *)
Definition na : name := ["a"%char].
Definition nb : name := ["b"%char].
Definition nc : name := ["c"%char].
Definition rx_e : cenv := mk_cenv 0 0 0 0 None 0.
Definition rx_o : rgopts := mk_rgopts gx_o 3 5 false.
Definition rx_ops : list rgop :=
  [RgCreate rx_e na 108; RgCreate rx_e nb 108; RgCall 8 (GoAdd (SmScalar 103 7 1) 0 0); RgCall 13 (GoAdd (SmScalar 104 9 1) 0 0);
   RgCreate rx_e na 200; RgDel na; RgCreate rx_e nc 115; RgCall 8 (GoAdd (SmScalar 116 5 2) 0 0);
   RgPusher 13 true; RgPush (mk_rpusher 1 (mk_pusher true true)) (SmScalar 114 6 1) 0 0; RgEnable true].
Definition rx_r : registry := match rg_run ne_rev (rg_new rx_o) rx_ops with Ok (_, r) => r | _ => rg_new rx_o end.
Example rx_run : exists outs, rg_run ne_rev (rg_new rx_o) rx_ops = Ok (outs, rx_r) /\
  firstn 1 outs = [RId 8] /\ nth 1 outs RUnit = RId 13 /\ nth 4 outs RUnit = RId 8 /\ nth 6 outs RUnit = RId 8.
Proof. eexists. split; [vm_compute; reflexivity|]. vm_compute. auto. Qed.
Example rx_fits : fits rx_o 1000. Proof. unfold fits. vm_compute. repeat split; congruence. Qed.
Example rx_reach : reachable ne_rev rx_o 11 rx_r.
Proof. exists rx_ops. destruct rx_run as (outs & E & _). exists outs. split; auto. Qed.
Example rx_names : rg_get_name 8 rx_r = nc /\ rg_get_name 13 rx_r = nb /\ rg_get_name 18 rx_r = [].
Proof. vm_compute. auto. Qed.
Example rx_registered : exists s g s' g', registered rx_r nc 8 s g /\ registered rx_r nb 13 s' g' /\ s <> s'.
Proof.
  eexists _, _, _, _. split; [|split].
  - split; [discriminate|]. split; [reflexivity|]. eexists. vm_compute. reflexivity.
  - split; [discriminate|]. split; [reflexivity|]. eexists. vm_compute. reflexivity.
  - vm_compute. discriminate.
Qed.

(** C28 *)
(** After create_aggregator(n) = id in any reachable state: get_name(id) = n, an aggregator is registered under that id;
    the id was unused before, or it was n's already and nothing changed; no other id changes its name; creating n again
    returns the same id and changes nothing. *)
Theorem C28_create : forall ne o N r n e now id r1, fits o N -> reachable ne o N r -> n <> [] ->
  rg_create ne e n now r = Ok (id, r1) ->
  rg_get_name id r1 = n /\ (exists s g, registered r1 n id s g) /\
  (rg_get_name id r = [] \/ (rg_get_name id r = n /\ r1 = r)) /\
  (forall id', rg_get_name id' r <> [] -> rg_get_name id' r1 = rg_get_name id' r) /\
  (forall e' now', rg_create ne e' n now' r1 = Ok (id, r1)).
Proof. exact create_named. Qed.
Print Assumptions C28_create.

(** Two ids never carry the same name. *)
Theorem C28_injective : forall ne o N r id id', fits o N -> reachable ne o N r ->
  rg_get_name id r <> [] -> rg_get_name id r = rg_get_name id' r -> id = id'.
Proof. exact names_inj. Qed.
Print Assumptions C28_injective.

(** An id keeps its name, and the name its id, through any further calls except del of that name. *)
Theorem C28_stable : forall ne o N r id n ops outs r', fits o (N + length ops) -> reachable ne o N r ->
  n <> [] -> rg_get_name id r = n -> rg_run ne r ops = Ok (outs, r') -> ~ In (RgDel n) ops ->
  rg_get_name id r' = n /\ forall e now, rg_create ne e n now r' = Ok (id, r').
Proof. exact name_stable. Qed.
Print Assumptions C28_stable.

Example C28_witness : fits rx_o 11 /\ reachable ne_rev rx_o 11 rx_r /\
  exists r1, rg_create ne_rev rx_e na 120 rx_r = Ok (18, r1) /\ rg_get_name 18 r1 = na /\ rg_get_name 8 r1 = nc.
Proof.
  split; [eapply fits_le; [|apply rx_fits]; lia|]. split; [apply rx_reach|]. eexists. split; [vm_compute; reflexivity|].
  vm_compute. auto.
Qed.

(** C29 *)
Theorem C29_issued : forall ne o N r ops outs, fits o N -> (length ops <= N)%nat ->
  rg_run ne (rg_new o) ops = Ok (outs, r) ->
  forall id, In (RId id) outs -> id <> bad_id -> rgo_init o < id < bad_id /\ id mod rgo_step o = rgo_init o mod rgo_step o.
Proof. exact issued_ids. Qed.
Print Assumptions C29_issued.

Theorem C29_disjoint : forall ne o1 o2 N r1 r2 ops1 ops2 outs1 outs2, fits o1 N -> fits o2 N ->
  (length ops1 <= N)%nat -> (length ops2 <= N)%nat ->
  rgo_step o1 = rgo_step o2 -> rgo_init o1 mod rgo_step o1 <> rgo_init o2 mod rgo_step o2 ->
  rg_run ne (rg_new o1) ops1 = Ok (outs1, r1) -> rg_run ne (rg_new o2) ops2 = Ok (outs2, r2) ->
  forall id, In (RId id) outs1 -> In (RId id) outs2 -> id = bad_id.
Proof.
  intros ne o1 o2 N r1 r2 ops1 ops2 outs1 outs2 F1 F2 L1 L2 ES NE E1 E2 id H1 H2.
  destruct (Z.eq_dec id bad_id) as [|NB]; auto. exfalso. apply NE.
  rewrite <- (proj2 (issued_ids ne o1 N r1 ops1 outs1 F1 L1 E1 id H1 NB)).
  rewrite <- (proj2 (issued_ids ne o2 N r2 ops2 outs2 F2 L2 E2 id H2 NB)). now rewrite ES.
Qed.
Print Assumptions C29_disjoint.

(** The empty name gets bad_id, which refers to nothing: every call through it is refused without effect. *)
Theorem C29_bad_id : forall ne e now op r, rg_create ne e [] now r = Ok (bad_id, r) /\
  rg_get bad_id r = Ok None /\ rg_call ne bad_id op r = Ok (no_out op, r) /\
  forall o N, fits o N -> reachable ne o N r -> rg_get_name bad_id r = [].
Proof.
  intros ne e now op r. split; [reflexivity|]. split; [reflexivity|]. split; [reflexivity|].
  intros o N F R. destruct (reach_inv ne o N r F R) as (k & Hk & I). exact (name_bad o N F k r I Hk).
Qed.
Print Assumptions C29_bad_id.

Example C29_witness : exists outs1 r1 outs2 r2,
  rg_run ne_rev (rg_new rx_o) rx_ops = Ok (outs1, r1) /\
  rg_run ne_rev (rg_new (mk_rgopts gx_o 4 5 false)) [RgCreate rx_e na 108; RgCreate rx_e nb 108; RgCreate rx_e [] 1] = Ok (outs2, r2) /\
  In (RId 13) outs1 /\ outs2 = [RId 9; RId 14; RId bad_id] /\ 3 mod 5 <> 4 mod 5.
Proof. eexists _, _, _, _. do 2 (split; [vm_compute; reflexivity|]). vm_compute. split; [auto 10|]. split; [reflexivity|congruence]. Qed.

(** C30 *)
(** Full claim: a call through an id affects the aggregator of the name with that id and nothing else; an id without a
    name is refused.  The first half holds for all options; the second for id_step = 1 only. *)
Theorem C30_own_partial : forall ne o N r id n op out r1, fits o N -> reachable ne o N r -> n <> [] -> rg_get_name id r = n ->
  rg_call ne id op r = Ok (out, r1) ->
  exists s g g', registered r n id s g /\ g_call ne op g = Ok (out, g') /\ registered r1 n id s g' /\
    forall n' id' s' g1, n' <> n -> (registered r1 n' id' s' g1 <-> registered r n' id' s' g1).
Proof. exact call_own. Qed.
Print Assumptions C30_own_partial.

Theorem C30_refused_partial : forall ne o N r id, fits o N -> reachable ne o N r -> rgo_step o = 1 -> 0 <= id < two64 ->
  rg_get_name id r = [] -> rg_get id r = Ok None.
Proof. exact call_refused. Qed.
Print Assumptions C30_refused_partial.

Example C30_witness : fits rx_o 11 /\ reachable ne_rev rx_o 11 rx_r /\ rg_get_name 8 rx_r = nc /\
  exists out r1 s g s' g', rg_call ne_rev 8 (GoAdd (SmScalar 117 1 1) 0 0) rx_r = Ok (out, r1) /\ out_bool out = Some true /\
    registered rx_r nc 8 s g /\ registered r1 nc 8 s' g' /\ r_total (s_red (g_sep g)) = 2 /\ r_total (s_red (g_sep g')) = 3.
Proof.
  split; [eapply fits_le; [|apply rx_fits]; lia|]. split; [apply rx_reach|]. split; [reflexivity|].
  eexists _, _, _, _, _, _. split; [vm_compute; reflexivity|]. split; [reflexivity|].
  split; [split; [discriminate|split; [reflexivity|eexists; vm_compute; reflexivity]]|].
  split; [split; [discriminate|split; [reflexivity|eexists; vm_compute; reflexivity]]|].
  vm_compute. auto.
Qed.

(** With id_step 5, id 6 was never issued and has no name, yet adding to it is accepted and lands in the aggregator of
    id 8. *)
Theorem C30_foreign_id_refuted : fits rx_o 11 /\ reachable ne_rev rx_o 11 rx_r /\ rg_get_name 6 rx_r = [] /\
  exists out r1 s g s' g', rg_call ne_rev 6 (GoAdd (SmScalar 117 1 1) 0 0) rx_r = Ok (out, r1) /\ out_bool out = Some true /\
    registered rx_r nc 8 s g /\ registered r1 nc 8 s' g' /\ r_total (s_red (g_sep g)) = 2 /\ r_total (s_red (g_sep g')) = 3.
Proof.
  split; [eapply fits_le; [|apply rx_fits]; lia|]. split; [apply rx_reach|]. split; [reflexivity|].
  eexists _, _, _, _, _, _. split; [vm_compute; reflexivity|]. split; [reflexivity|].
  split; [split; [discriminate|split; [reflexivity|eexists; vm_compute; reflexivity]]|].
  split; [split; [discriminate|split; [reflexivity|eexists; vm_compute; reflexivity]]|].
  vm_compute. auto.
Qed.
Print Assumptions C30_foreign_id_refuted.

(** C31 *)
(** pop_all ([f] = false) and force_pop_all ([f] = true) in any reachable state: no name occurs twice; (n, d) is in the
    list iff an aggregator is registered under n and separate followed by pop (force_pop) on it yields d; every
    registered aggregator went through exactly that step; nothing else is registered afterwards. *)
Theorem C31_pop_all : forall ne o N f clk r l r1, fits o N -> reachable ne o N r -> rg_pop_all ne f clk r = Ok (l, r1) ->
  NoDup (map fst l) /\
  (forall n d, In (n, d) l <-> exists id s g g', registered r n id s g /\ taken ne f (clk n) g (Some d) g') /\
  (forall n id s g, registered r n id s g -> exists d g', taken ne f (clk n) g d g' /\ registered r1 n id s g') /\
  (forall n id s g', registered r1 n id s g' -> exists g, registered r n id s g).
Proof. exact pop_all_exact. Qed.
Print Assumptions C31_pop_all.

Example C31_witness : exists l r1, rg_pop_all ne_rev false (fun _ => 125) rx_r = Ok (l, r1) /\
  map (fun p => (fst p, ad_ts (snd p), ad_count (snd p))) l = [(nc, 110, 2); (nb, 110, 1)].
Proof. eexists _, _. split; [vm_compute; reflexivity|]. vm_compute. reflexivity. Qed.

(** C32 *)
(** del never fails in a reachable state; afterwards nothing is registered under the name and its id has no name; all
    other names, ids and aggregators are as before. *)
Theorem C32_del_partial : forall ne o N r n, fits o N -> reachable ne o N r -> n <> [] ->
  exists b r1, rg_del n r = Ok (b, r1) /\
  (forall id s g, ~ registered r1 n id s g) /\
  (forall id, rg_get_name id r1 = if name_eqb (rg_get_name id r) n then [] else rg_get_name id r) /\
  (forall n' id' s' g1, n' <> n -> (registered r1 n' id' s' g1 <-> registered r n' id' s' g1)) /\
  rg_enabled r1 = rg_enabled r /\ rg_initializer r1 = rg_initializer r.
Proof.
  intros ne o N r n F R HN. destruct (del_total ne o N r n F R) as (b & r1 & E). exists b, r1. split; [exact E|].
  exact (del_effect ne o N r n b r1 F R HN E).
Qed.
Print Assumptions C32_del_partial.

(** Pushers of the deleted aggregator deliver nothing and change nothing, whatever happens after the deletion. *)
Theorem C32_pushers_partial : forall ne o N r n id s g b r1 ops outs r2, fits o (N + S (length ops)) -> reachable ne o N r ->
  registered r n id s g -> rg_del n r = Ok (b, r1) -> rg_run ne r1 ops = Ok (outs, r2) ->
  forall p x c1 c2, rp_obj p = s -> rg_call_pusher ne p x c1 c2 r2 = Ok ([], r2).
Proof. exact del_pushers. Qed.
Print Assumptions C32_pushers_partial.
(** ... and a pusher created from an id is a pusher of the aggregator registered under it. *)
Theorem C32_pusher_of_partial : forall r n id s g h, registered r n id s g ->
  exists pu, rg_pusher id h r = Ok (Some (mk_rpusher s pu)).
Proof. intros r n id s g h (_ & _ & pos & E). unfold rg_pusher. rewrite E. eexists. reflexivity. Qed.
Print Assumptions C32_pusher_of_partial.

(** A name not registered (never created, or deleted) gets a brand-new aggregator, a different object, in its initial
    state; disabled if the registry is; with the initializer's record added if there is one. *)
Theorem C32_recreate_partial : forall ne o N r n e now id r1, fits o N -> reachable ne o N r -> n <> [] ->
  (forall i s g, ~ registered r n i s g) -> rg_create ne e n now r = Ok (id, r1) ->
  exists s g0 g, agg_new (rgo_agg o) (ce_clock e) (ce_rnd e) now = Ok g0 /\ registered r1 n id s g /\
    (forall m i g1, ~ registered r m i s g1) /\
    (rg_enabled r = false -> g = g_enable false g0) /\
    (rg_enabled r = true -> rg_initializer r = false \/ ce_init e = None -> g = g0) /\
    (rg_enabled r = true -> rg_initializer r = true -> forall rd, ce_init e = Some rd ->
       exists a, g_call ne (GoAdd (SmRed rd) (ce_c1 e) (ce_c2 e)) g0 = Ok (a, g)).
Proof. exact recreate. Qed.
Print Assumptions C32_recreate_partial.

(** del never reports success. *)
Theorem C32_del_result_refuted :
  (forall r n b r1, rg_del n r = Ok (b, r1) -> b = false) /\
  exists r1, rg_del nb rx_r = Ok (false, r1) /\ rg_get_name 13 rx_r = nb /\ rg_get_name 13 r1 = [].
Proof.
  split.
  - intros r n b r1 E. unfold rg_del, d_free_id in E. destruct (d_get_id n (rg_dict r) =? bad_id); [congruence|].
    destruct (d_id2pos _ _) as [p| |]; cbn [bind] in E; try discriminate. destruct (_ <? _)%nat; [|discriminate].
    destruct (m_find Z.eqb _ _); congruence.
  - eexists. split; [vm_compute; reflexivity|]. vm_compute. auto.
Qed.
Print Assumptions C32_del_result_refuted.

Example C32_witness : exists s g b r1 r2, registered rx_r nb 13 s g /\ rg_del nb rx_r = Ok (b, r1) /\ s = 1%nat /\
  rg_run ne_rev r1 [RgCreate rx_e nb 120; RgEnable false] = Ok ([RId 13; RUnit], r2) /\
  rg_call_pusher ne_rev (mk_rpusher 1 (mk_pusher true true)) (SmScalar 150 1 1) 0 0 rx_r <> Ok ([], rx_r) /\
  rg_call_pusher ne_rev (mk_rpusher 1 (mk_pusher true true)) (SmScalar 150 1 1) 0 0 r2 = Ok ([], r2).
Proof.
  eexists _, _, _, _, _. split; [split; [discriminate|split; [reflexivity|eexists; vm_compute; reflexivity]]|].
  split; [vm_compute; reflexivity|]. split; [reflexivity|]. split; [vm_compute; reflexivity|]. split; [vm_compute; discriminate|vm_compute; reflexivity].
Qed.

(** C33 *)
(** For every history (of calls that do not use foreign ids, see C30) and every name: the answers to the calls addressed
    to that name are those a single aggregator of its own would give to just these calls. *)
Theorem C33_isolation : forall ne o n ops outs r, n <> [] -> fits o (length ops) -> all_clean ne (rg_new o) ops ->
  rg_run ne (rg_new o) ops = Ok (outs, r) ->
  exists c, cell_run ne (rgo_agg o) (mk_cell None true (rgo_initializer o)) (map fst (project ne n (rg_new o) ops))
            = Ok (map snd (project ne n (rg_new o) ops), c) /\
    (forall g, cl_agg c = Some g <-> exists id s, registered r n id s g) /\ cl_enabled c = rg_enabled r /\ cl_init c = rg_initializer r.
Proof. exact isolation. Qed.
Print Assumptions C33_isolation.

(** Two histories that agree on the calls addressed to a name agree on the answers, whatever else they contain. *)
Theorem C33_non_interference : forall ne o n ops1 ops2 outs1 outs2 r1 r2, n <> [] ->
  fits o (length ops1) -> fits o (length ops2) -> all_clean ne (rg_new o) ops1 -> all_clean ne (rg_new o) ops2 ->
  rg_run ne (rg_new o) ops1 = Ok (outs1, r1) -> rg_run ne (rg_new o) ops2 = Ok (outs2, r2) ->
  map fst (project ne n (rg_new o) ops1) = map fst (project ne n (rg_new o) ops2) ->
  map snd (project ne n (rg_new o) ops1) = map snd (project ne n (rg_new o) ops2).
Proof.
  intros ne o n ops1 ops2 outs1 outs2 r1 r2 HN F1 F2 C1 C2 E1 E2 EQ.
  destruct (isolation ne o n ops1 outs1 r1 HN F1 C1 E1) as (c1 & H1 & _).
  destruct (isolation ne o n ops2 outs2 r2 HN F2 C2 E2) as (c2 & H2 & _). rewrite EQ in H1. congruence.
Qed.
Print Assumptions C33_non_interference.

(** With the default id_step = 1 the restriction on foreign ids is void. *)
Theorem C33_step1_clean : forall ne o ops, rgo_step o = 1 -> fits o (length ops) -> Forall id_ok ops -> all_clean ne (rg_new o) ops.
Proof. exact clean_new. Qed.
Print Assumptions C33_step1_clean.

Example C33_witness : all_clean ne_rev (rg_new rx_o) rx_ops /\
  map fst (project ne_rev nb (rg_new rx_o) rx_ops) =
    [CoCreate rx_e 108; CoCall (GoAdd (SmScalar 104 9 1) 0 0); CoPush (mk_pusher true true) (SmScalar 114 6 1) 0 0; CoEnable true] /\
  map (fun c => match c with CRecs l => map ad_ts l | _ => [] end) (map snd (project ne_rev nb (rg_new rx_o) rx_ops)) = [[]; []; [100]; []] /\
  map fst (project ne_rev nc (rg_new rx_o) rx_ops) = [CoCreate rx_e 115; CoCall (GoAdd (SmScalar 116 5 2) 0 0); CoEnable true].
Proof.
  split; [|vm_compute; auto].
  cbn [all_clean rx_ops]. repeat (split; [vm_compute; first [exact I|left; discriminate]|]; 
    match goal with |- match ?t with _ => _ end => let v := eval vm_compute in t in change t with v end; cbv iota).
  exact I.
Qed.

(** C34 *)
(** Full claim: force_pushout() hands everything recorded to the handler.  Proved: if no open window has ended by the
    clock, each name with a non-empty open window is delivered exactly once, and the record is that window
    (force_pop(), characterised by C26_force_pop_partial). *)
Theorem C34_flush_partial : forall ne o N clk w l w1, fits o N -> reachable ne o N (w_reg w) -> w_handler w = true ->
  (forall n id s g, registered (w_reg w) n id s g -> not_due ne (clk n) g) ->
  w_pushout ne true clk w = Ok (l, w1) ->
  NoDup (map fst l) /\
  (forall n d, In (n, d) l <-> exists id s g g', registered (w_reg w) n id s g /\ g_force_pop ne g = Ok (Some d, g')).
Proof. exact flush_exact. Qed.
Print Assumptions C34_flush_partial.

Example C34_witness : exists l w1, w_pushout ne_rev true (fun _ => 118) (mk_wrt rx_r true) = Ok (l, w1) /\
  map (fun p => (fst p, ad_ts (snd p), ad_count (snd p))) l = [(nc, 110, 2); (nb, 110, 1)] /\
  forall n id s g, registered rx_r n id s g -> not_due ne_rev 118 g.
Proof.
  eexists _, _. split; [vm_compute; reflexivity|]. split; [vm_compute; reflexivity|].
  intros n id s g (_ & _ & pos & E). apply get_some, nth_error_In in E. vm_compute in E.
  repeat (destruct E as [E|E]; [try discriminate E; injection E as _ <-; exists []; vm_compute; reflexivity|]). destruct E.
Qed.

(** A window already closed (here 100, when 114 arrived) is not delivered by the flush ... *)
Theorem C34_closed_window_refuted : exists outs r l w1,
  rg_run ne_rev (rg_new rx_o) [RgCreate rx_e na 108; RgCall 8 (GoAdd (SmScalar 103 7 1) 0 0); RgCall 8 (GoAdd (SmScalar 114 9 1) 0 0)] = Ok (outs, r) /\
  w_pushout ne_rev true (fun _ => 118) (mk_wrt r true) = Ok (l, w1) /\ map (fun p => (ad_ts (snd p), ad_data (snd p))) l = [(110, [9])].
Proof. eexists _, _, _, _. do 2 (split; [vm_compute; reflexivity|]). vm_compute. reflexivity. Qed.
Print Assumptions C34_closed_window_refuted.
(** ... nor is the last window if it has ended by the time of the flush: nothing at all is delivered. *)
Theorem C34_due_window_refuted : exists outs r w1,
  rg_run ne_rev (rg_new rx_o) [RgCreate rx_e na 108; RgCall 8 (GoAdd (SmScalar 103 7 1) 0 0)] = Ok (outs, r) /\
  w_pushout ne_rev true (fun _ => 110) (mk_wrt r true) = Ok ([], w1).
Proof. eexists _, _, _. split; [vm_compute; reflexivity|]. vm_compute. reflexivity. Qed.
Print Assumptions C34_due_window_refuted.
(** Without a handler, flushing pending data throws. *)
Theorem C34_no_handler_refuted : exists outs r,
  rg_run ne_rev (rg_new rx_o) [RgCreate rx_e na 108; RgCall 8 (GoAdd (SmScalar 103 7 1) 0 0)] = Ok (outs, r) /\
  w_pushout ne_rev true (fun _ => 105) (mk_wrt r false) = Exn.
Proof. eexists _, _. split; [vm_compute; reflexivity|]. vm_compute. reflexivity. Qed.
Print Assumptions C34_no_handler_refuted.
