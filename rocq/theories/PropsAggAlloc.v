(** C94: an aggregator when memory runs out. *)
From Coq Require Import ZArith List Bool Lia Arith Permutation.
From Verif Require Import Base SortFacts ModelTypes ModelReducer SpecReducer ModelSeparator SpecSeparator ModelAggregator SpecAggregator
  ModelAlloc SpecAlloc ModelAggAlloc SpecAggAlloc AllocProofs ReducerProofs SepRun AggProofs ThrowProofs AggAllocProofs PropsReducer PropsAggregator.
Import ListNotations.
Local Open Scope Z_scope.

(** Without failures the calls are the ordinary ones. *)
Theorem C94_no_failure : forall ne ops g,
  gf_run ne g (map (fun op => (op, None)) ops) = ('(os, g1) <- g_run ne g ops ;; Ok (map GRet os, g1)).
Proof.
  intros ne ops. induction ops as [|op ops IH]; intros g; cbn [map gf_run g_run]; [reflexivity|].
  rewrite call_plain. destruct (g_call ne op g) as [[o g1]| |]; cbn [bind]; try reflexivity. rewrite IH.
  destruct (g_run ne g1 ops) as [[os g2]| |]; reflexivity.
Qed.
Print Assumptions C94_no_failure.
(** A call that returns has done what it always does: no failure is swallowed. *)
Theorem C94_returned : forall ne op f g o g1, gf_call ne op f g = Ok (GRet o, g1) -> g_call ne op g = Ok (o, g1).
Proof. exact call_ret. Qed.
Print Assumptions C94_returned.
(** A call that fails before it has changed anything can be repeated: the aggregator is as it was, no handler was called. *)
Theorem C94_up_front : forall ne op f g recs lost g1, gf_call ne op f g = Ok (GThrew recs lost, g1) -> up_front f = true ->
  g1 = g /\ recs = [] /\ lost = [].
Proof.
  intros ne op f g recs lost g1 E U. destruct (call_threw ne _ _ _ _ _ _ E) as [(_ & A & B & C)|[(H & _)|((i & k & ->) & _)]]; auto.
  - destruct f as [[| | | |]|]; discriminate.
  - discriminate.
Qed.
Print Assumptions C94_up_front.
(** Records are destroyed only by failures that hit a record on its way, one by each. *)
Theorem C94_lost : forall ne ops g es g1, gf_run ne g ops = Ok (es, g1) ->
  length (gf_lost es) = length (filter (fun q => in_transit (snd (fst q)) && bad_alloc (snd q)) (combine ops es)).
Proof.
  intros ne ops. induction ops as [|[op f] ops IH]; intros g es g1 E; cbn [gf_run] in E; [injection E as <- <-; reflexivity|].
  destruct (gf_call ne op f g) as [[e g2]| |] eqn:E1; cbn [bind] in E; try discriminate.
  destruct (gf_run ne g2 ops) as [[es1 g3]| |] eqn:E2; cbn [bind] in E; try discriminate. injection E as <- <-.
  cbn [combine filter fst snd]. unfold gf_lost. cbn [flat_map]. rewrite app_length. fold (gf_lost es1). rewrite (IH _ _ _ E2).
  destruct e as [o|recs lost]; cbn [bad_alloc]; [rewrite andb_false_r; reflexivity|rewrite andb_true_r].
  destruct (call_threw ne _ _ _ _ _ _ E1) as [(U & _ & -> & _)|[(T & d & ->)|((i & k & ->) & ->)]].
  - destruct f as [[| | | |]|]; try discriminate; reflexivity.
  - rewrite T. reflexivity.
  - reflexivity.
Qed.
Print Assumptions C94_lost.

(** Any history of calls and failures: the counts of the records handlers were given, of those popped, of those destroyed, of those waiting
    inside and of the open window add up to the events of the calls that returned true and of those that threw only when a finished
    record was to be queued. *)
Theorem C94_conservation : forall ne, nth_element_ok ne -> forall o c rnd ts g0 ops es g p,
  agg_new o c rnd ts = Ok g0 -> Forall fc_typed ops -> Forall fc_not_clear ops -> gf_run ne g0 ops = Ok (es, g) -> g_current ne g = Ok p ->
  u64 (sum_count (gf_given es ++ gf_popped ops es ++ gf_lost es ++ g_list g ++ s_list (g_sep g)) + match p with Some d => ad_count d | None => 0 end) =
  u64 (events (intakes true ops es)).
Proof.
  intros ne Hne o c rnd ts g0 ops es g p E0 HT HN E Ep. destruct (new_rinv _ _ _ _ _ E0) as (I0 & H0 & N0).
  destruct (run_flow ne Hne (so_red (ao_sep o)) ops HT HN g0 account0 es g I0 E) as (ac & I & C & _). rewrite H0, N0 in C.
  change (sum_count [] + a_declared account0) with 0 in C. rewrite Z.add_0_l in C. rewrite <- C.
  pose proof (current_flow ne Hne _ _ _ _ I Ep) as P. unfold held. destruct p as [d|].
  - destruct P as [-> _]. rewrite Z.add_comm, u64_add_l. f_equal. lia.
  - rewrite P. reflexivity.
Qed.
Print Assumptions C94_conservation.
(** ... and no value appears in all these records more often than it was tried. *)
Theorem C94_values : forall ne, nth_element_ok ne -> forall o c rnd ts g0 ops es g p,
  agg_new o c rnd ts = Ok g0 -> Forall fc_typed ops -> Forall fc_not_clear ops -> gf_run ne g0 ops = Ok (es, g) -> g_current ne g = Ok p ->
  submultiset (flat_map ad_data (gf_given es ++ gf_popped ops es ++ gf_lost es ++ g_list g ++ s_list (g_sep g)) ++
               match p with Some d => ad_data d | None => [] end) (tried (intakes true ops es)).
Proof.
  intros ne Hne o c rnd ts g0 ops es g p E0 HT HN E Ep. destruct (new_rinv _ _ _ _ _ E0) as (I0 & H0 & N0).
  destruct (run_flow ne Hne (so_red (ao_sep o)) ops HT HN g0 account0 es g I0 E) as (ac & I & _ & S). rewrite H0, N0 in S.
  pose proof (current_flow ne Hne _ _ _ _ I Ep) as P. eapply submultiset_trans; [|exact S].
  apply submultiset_app; [apply submultiset_refl|]. destruct p as [d|]; [exact (proj2 P)|]. exists (a_tried ac). reflexivity.
Qed.
Print Assumptions C94_values.

(** A history with a failure of each kind. *)
Definition aa_ops : list fcall :=
  [(GoAdd (SmScalar 103 7 1) 0 0, None); (GoPush (SmArr 117 [1; 2] 4) true 0 0, Some GfStart); (GoAdd (SmArr 117 [1; 2] 4) 0 0, Some GfDetach);
   (GoAdd (SmArr 117 [1; 2] 4) 0 0, Some (GfAg 0)); (GoAdd (SmArr 118 [5; 6] 2) 0 0, None); (GoAdd (SmScalar 125 8 1) 0 0, Some (GfValue 0 FRow));
   (GoPop, None); (GoAdd (SmScalar 126 9 3) 0 0, None); (GoPush (SmScalar 133 4 1) true 0 0, Some GfQueue); (GoPush (SmScalar 133 4 1) true 0 0, None);
   (GoAdd (SmScalar 141 1 1) 0 0, None)].
Example C94_witness : agg_new gx_o 0 0 108 = Ok gx_g0 /\ exists es g p, gf_run ne_rev gx_g0 aa_ops = Ok (es, g) /\ g_current ne_rev g = Ok (Some p) /\
  Forall fc_typed aa_ops /\ Forall fc_not_clear aa_ops /\
  map bad_alloc es = [false; true; true; true; false; true; false; false; true; false; false] /\
  map (fun a => (ad_ts a, ad_count a)) (gf_lost es) = [(100, 1); (120, 3)] /\
  map (fun a => (ad_ts a, ad_count a)) (g_list g) = [(110, 6); (130, 1)] /\ ad_count p = 1 /\ events (intakes true aa_ops es) = 12 /\
  tried (intakes true aa_ops es) = [7; 1; 2; 5; 6; 8; 9; 4; 1].
Proof.
  split; [apply gx_new|].
  eexists _, _, _. split; [vm_compute; reflexivity|]. split; [vm_compute; reflexivity|].
  split; [unfold aa_ops; repeat (constructor; [unfold fc_typed; cbn [fst]; first [exact I | split; [|exact I]; typed]|]); constructor|].
  split; [repeat (constructor; [exact I|]); constructor|]. vm_compute. auto 10.
Qed.

(** REFUTED: an add() that throws bad_alloc has had no effect, or: has recorded its measurement.  In both histories the second add() throws and is
    repeated; in the first the measurement ends up counted once, in the second twice. *)
Definition aa_retry (f : gfail) : list fcall :=
  [(GoAdd (SmScalar 103 7 1) 0 0, None); (GoAdd (SmScalar 117 9 1) 0 0, Some f); (GoAdd (SmScalar 117 9 1) 0 0, None); (GoCurrent, None)].
Theorem C94_retry_refuted : exists g1 o1 g2 o2 l2,
  gf_run ne_rev gx_g0 (aa_retry GfDetach) = Ok ([GRet (mk_sout (Some true) [] None); GThrew [] []; GRet (mk_sout (Some true) [] None); GRet o1], g1) /\
  gf_run ne_rev gx_g0 (aa_retry (GfAg 0)) = Ok ([GRet (mk_sout (Some true) [] None); GThrew [] l2; GRet (mk_sout (Some true) [] None); GRet o2], g2) /\
  option_map (fun a => (ad_ts a, ad_count a)) (out_ptr o1) = Some (110, 1) /\ option_map (fun a => (ad_ts a, ad_count a)) (out_ptr o2) = Some (110, 2).
Proof.
  eexists _, _, _, _, _. split; [vm_compute; reflexivity|]. split; [vm_compute; reflexivity|]. split; vm_compute; reflexivity.
Qed.
Print Assumptions C94_retry_refuted.
(** REFUTED: what was recorded before the memory ran out is reported.  The window 100 is closed by an add() whose allocation fails; its record, the
    answer of an earlier add() that returned true, is seen by nobody - neither by the handler nor by pop(), force_pop() or in any later call. *)
Theorem C94_lost_refuted : exists es g,
  gf_run ne_rev gx_g0 [(GoAdd (SmScalar 103 7 1) 0 0, None); (GoPush (SmScalar 117 9 1) true 0 0, Some GfQueue); (GoPush (SmScalar 117 9 1) true 0 0, None);
                       (GoForcePop, None); (GoForcePop, None)] = Ok (es, g) /\
  nth_error es 0 = Some (GRet (mk_sout (Some true) [] None)) /\ gf_given es = [] /\ g_list g = [] /\
  map (fun e => match e with GRet o => option_map (fun a => (ad_ts a, ad_count a)) (out_ptr o) | _ => None end) es = [None; None; None; Some (110, 1); None] /\
  g_current ne_rev g = Ok None.
Proof. eexists _, _. split; [vm_compute; reflexivity|]. vm_compute. auto 8. Qed.
Print Assumptions C94_lost_refuted.
(** REFUTED: a closed window is ready for pop().  The add() that closed the window 100 fails on its own measurement; pop() and size() do not show the
    record until another add() succeeds. *)
Theorem C94_ready_refuted : exists es g a,
  gf_run ne_rev gx_g0 [(GoAdd (SmScalar 103 7 1) 0 0, None); (GoAdd (SmScalar 117 9 1) 0 0, Some (GfValue 0 FRow)); (GoPop, None);
                       (GoAdd (SmScalar 117 9 1) 0 0, None); (GoPop, None)] = Ok (es, g) /\
  nth_error es 2 = Some (GRet (mk_sout None [] None)) /\ nth_error es 4 = Some (GRet (mk_sout None [] (Some a))) /\ ad_ts a = 100.
Proof. eexists _, _, _. split; [vm_compute; reflexivity|]. split; [reflexivity|]. split; vm_compute; reflexivity. Qed.
Print Assumptions C94_ready_refuted.
