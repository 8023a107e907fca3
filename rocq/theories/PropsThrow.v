(** C88, C89: handlers that throw. *)
From Coq Require Import ZArith List Bool Permutation Lia Arith Ascii.
From Verif Require Import Base SortFacts ModelTypes ModelReducer SpecReducer ModelSeparator SpecSeparator ModelAggregator SpecAggregator
  ModelRegistry SpecRegistry ModelComposite ModelMeters ModelSystem ModelThrow SpecThrow SpecThrowSys AggRun AggFinal ThrowProofs ThrowSys
  PropsReducer PropsSeparator PropsAggregator PropsRegistry PropsSystem.
Import ListNotations.
Local Open Scope Z_scope.

(** C88 *)
(** push() with a handler that may throw, beside the same push() with one that does not: the handler is given at most one record, and it
    is the same one; if it throws on it, the exception reaches the caller; otherwise nothing differs. *)
Theorem C88_push : forall ne x th c1 c2 g out g2, g_call ne (GoPush x true c1 c2) g = Ok (out, g2) ->
  (length (out_handler out) <= 1)%nat /\
  ((forall d, In d (out_handler out) -> th d = false) -> tg_push ne x th c1 c2 g = Ok (TRet out, g2)) /\
  (forall d, In d (out_handler out) -> th d = true -> exists g1, tg_push ne x th c1 c2 g = Ok (TThrew [d], g1)).
Proof.
  intros ne x th c1 c2 g out g2 E.
  assert (X : not_list x) by (destruct x; cbn in E; try discriminate; exact I). split; [|split].
  - destruct (out_handler out) as [|d l] eqn:Eo; [cbn; lia|].
    destruct (push_loud ne x th c1 c2 g out g2 d X E) as [H _]; [rewrite Eo; now left|]. rewrite Eo in H. rewrite H. cbn. lia.
  - intros Q. now apply push_quiet.
  - intros d I0 T. exact (proj2 (push_loud ne x th c1 c2 g out g2 d X E I0) T).
Qed.
Print Assumptions C88_push.
(** The same for separate(). *)
Theorem C88_separate : forall ne ts th force c g out g2, g_call ne (GoSeparate ts true force c) g = Ok (out, g2) ->
  (length (out_handler out) <= 1)%nat /\
  ((forall d, In d (out_handler out) -> th d = false) -> tg_separate ne ts th force c g = Ok (TRet out, g2)) /\
  (forall d, In d (out_handler out) -> th d = true -> exists g1, tg_separate ne ts th force c g = Ok (TThrew [d], g1)).
Proof.
  intros ne ts th force c g out g2 E. split; [|split].
  - destruct (out_handler out) as [|d l] eqn:Eo; [cbn; lia|].
    destruct (sep_loud ne ts th force c g out g2 d E) as [H _]; [rewrite Eo; now left|]. rewrite Eo in H. rewrite H. cbn. lia.
  - intros Q. now apply sep_quiet.
  - intros d I0 T. exact (proj2 (sep_loud ne ts th force c g out g2 d E I0) T).
Qed.
Print Assumptions C88_separate.

(** Any history of an aggregator, with handlers that throw on whatever they like: the aggregator ends in exactly the state it would be in had
    force_pop() been called in place of every call that threw, all answers are those of that history, and the handler that threw had got what
    force_pop() would have returned. *)
Theorem C88_history : forall ne, nth_element_ok ne -> forall o c rnd ts g0 ops rs g,
  0 < so_step (ao_sep o) -> agg_new o c rnd ts = Ok g0 -> Forall (t_coherent (so_step (ao_sep o)) (so_res (ao_sep o))) ops ->
  t_run ne g0 ops = Ok (rs, g) ->
  exists outs, g_run ne g0 (map as_if (combine ops rs)) = Ok (outs, g) /\ Forall2 (looks_like (ao_out o)) (combine ops rs) outs.
Proof.
  intros ne Hne o c rnd ts g0 ops rs g Hs E0 HC E. destruct (new_facts _ _ _ _ _ E0) as (F1 & F2 & F3 & F4).
  rewrite <- F4. apply (run_as_if ne Hne); auto; rewrite F2; auto. now rewrite F3.
Qed.
Print Assumptions C88_history.

(** Nothing is lost and nothing counted twice because of exceptions: the counts of all records handlers were given (also by calls that
    threw), of all records popped, of those still queued and of the open window add up to the counts of the calls that returned true. *)
Theorem C88_conservation : forall ne, nth_element_ok ne -> forall o c rnd ts g0 ops rs g p,
  0 < so_step (ao_sep o) -> agg_new o c rnd ts = Ok g0 -> Forall (t_coherent (so_step (ao_sep o)) (so_res (ao_sep o))) ops ->
  Forall t_typed ops -> Forall t_not_clear ops ->
  t_run ne g0 ops = Ok (rs, g) -> g_current ne g = Ok p ->
  u64 (sum_count (given rs ++ returned ops rs ++ g_list g) + match p with Some d => ad_count d | None => 0 end) =
  u64 (declared (t_recorded true ops rs)).
Proof.
  intros ne Hne o c rnd ts g0 ops rs g p Hs E0 HC HT HN E Ep.
  destruct (C88_history ne Hne _ _ _ _ _ _ _ _ Hs E0 HC E) as (outs & Eo & Lo).
  pose proof (trun_length ne _ _ _ _ E) as HL.
  pose proof (gcons ne Hne o (map as_if (combine ops rs)) g0 outs g p Hs (gnew_idle ne o c rnd ts g0 Hs E0)
    (as_if_forall _ _ as_if_typed ops rs HT) (as_if_forall _ _ as_if_not_clear ops rs HN) Eo Ep) as (A & _).
  destruct (new_facts _ _ _ _ _ E0) as (F1 & F2 & F3 & F4).
  rewrite (looks_recorded _ _ _ _ _ _ _ Lo HL) in A.
  assert (EN : g_enabled g0 = true) by (exact (new_enabled _ _ _ _ _ E0)). rewrite EN in A. rewrite <- A. f_equal.
  assert (SL : s_list (g_sep g) = []).
  { clear - Hs HC E F1 F2 F3 Hne. rewrite <- F2, <- F3 in HC. assert (Hs' : 0 < s_step (g_sep g0)) by now rewrite F2. clear Hs F2 F3.
    revert g0 rs F1 Hs' HC E. induction ops as [|op ops IH]; intros g0 rs F1 Hs HC E; cbn [t_run] in E; [injection E as _ <-; exact F1|].
    destruct (t_call ne op g0) as [[r g1]| |] eqn:Ec; cbn [bind] in E; try discriminate.
    destruct (t_run ne g1 ops) as [[rs1 g2]| |] eqn:Er; cbn [bind] in E; try discriminate. injection E as _ <-.
    destruct (tcall_kept ne Hne _ _ _ _ Hs F1 (Forall_inv HC) Ec) as (K1 & K2 & K3 & _).
    apply (IH g1 rs1); auto; [now rewrite K2|rewrite K2, K3; exact (Forall_inv_tail HC)]. }
  rewrite SL, !sum_count_app. pose proof (looks_sum _ _ _ _ Lo HL). change (sum_count []) with 0. lia.
Qed.
Print Assumptions C88_conservation.

(** The caller who catches the exception and makes the same call again: the handler is not called, and everything is as if the handler
    had not thrown in the first place - the measurement is recorded once. *)
Theorem C88_retry : forall ne x th c1 c2 g out g2 recs g1,
  g_call ne (GoPush x true c1 c2) g = Ok (out, g2) -> tg_push ne x th c1 c2 g = Ok (TThrew recs, g1) ->
  g_call ne (GoPush x true c1 c2) g1 = Ok (mk_sout (out_bool out) [] None, g2).
Proof. exact push_retry. Qed.
Print Assumptions C88_retry.

(** A history: the handler throws on the record of the window 100, the call is not repeated. *)
Definition hx_th (a : adata) : bool := ad_ts a =? 100.
Definition hx_ops : list top :=
  [TPlain (GoAdd (SmScalar 103 7 1) 0 0); TPlain (GoAdd (SmArr 105 [1; 2] 2) 0 0); TPush (SmScalar 117 9 2) hx_th 0 0;
   TPush (SmScalar 118 4 1) hx_th 0 0; TSeparate 121 (fun a => ad_ts a =? 110) false 0; TPlain (GoAdd (SmScalar 123 1 1) 0 0)].
Example C88_witness : exists rs g p, t_run ne_rev gx_g0 hx_ops = Ok (rs, g) /\ g_current ne_rev g = Ok (Some p) /\
  Forall (t_coherent 10 RSeconds) hx_ops /\ Forall t_typed hx_ops /\ Forall t_not_clear hx_ops /\
  map (fun r => match r with TThrew recs => map (fun a => (ad_ts a, ad_count a)) recs | _ => [] end) rs = [[]; []; [(100, 3)]; []; [(110, 1)]; []] /\
  sum_count (given rs ++ returned hx_ops rs ++ g_list g) = 4 /\ ad_count p = 1 /\ declared (t_recorded true hx_ops rs) = 5.
Proof.
  eexists _, _, _. split; [vm_compute; reflexivity|]. split; [vm_compute; reflexivity|].
  split; [repeat (constructor; [first [exact I | reflexivity]|]); constructor|].
  split; [unfold hx_ops; repeat (constructor; [first [exact I | split; [|exact I]; typed]|]); constructor|].
  split; [repeat (constructor; [exact I|]); constructor|]. vm_compute. auto.
Qed.

(** REFUTED: a window is reported to the handler once.  After the exception the window is still open, so an add() with a time in it makes a
    second record of the same window, delivered by the next push(). *)
Theorem C88_window_refuted : exists rs g, t_run ne_rev gx_g0
    [TPush (SmScalar 103 7 1) hx_th 0 0; TPush (SmScalar 117 9 2) hx_th 0 0; TPush (SmScalar 104 8 1) hx_th 0 0; TPush (SmScalar 118 4 1) (fun _ => false) 0 0] =
    Ok (rs, g) /\ map (fun a => (ad_ts a, ad_data a)) (given rs) = [(100, [7]); (100, [8])].
Proof. eexists _, _. split; vm_compute; reflexivity. Qed.
Print Assumptions C88_window_refuted.
(** REFUTED: a push() that throws has recorded its measurement (or, the other way round, has had no effect). *)
Theorem C88_lost_refuted : exists rs g, t_run ne_rev gx_g0
    [TPush (SmScalar 103 7 1) hx_th 0 0; TPush (SmScalar 117 9 2) hx_th 0 0; TPlain GoForcePop] = Ok (rs, g) /\
  given rs <> [] /\ nth_error rs 2 = Some (TRet (mk_sout None [] None)) /\ g_current ne_rev g = Ok None.
Proof. eexists _, _. split; [vm_compute; reflexivity|]. vm_compute. split; [discriminate|]. auto. Qed.
Print Assumptions C88_lost_refuted.

(** C89 *)
(** Any operation of a program: it ends with an exception only if the handler threw one, on the last record it was given and on no other;
    if it throws on none, all is as in a program whose handler never throws. *)
Theorem C89_only_handler : forall ne th op s e ev s', y_do_t ne th op s = Ok (e, ev, s') ->
  match e with EndReturn => throws_never th (handler_calls ev) | _ => throws_last th (handler_calls ev) end.
Proof. intros ne th op s e ev s' E. pose proof (do_t_ended ne _ _ _ _ _ _ E) as H. destruct e; exact H. Qed.
Print Assumptions C89_only_handler.
Theorem C89_no_throw : forall ne th op s ev s', y_do ne op s = Ok (ev, s') -> throws_never th (handler_calls ev) ->
  y_do_t ne th op s = Ok (EndReturn, ev, s').
Proof. exact do_quiet. Qed.
Print Assumptions C89_no_throw.

(** pushout() and force_pushout(): the handler gets the records in the usual order up to the one it throws on; those behind it are gone, for
    the wrtstat object is left as if all had been delivered. *)
Theorem C89_pushout : forall ne th force clk s ev s' e ev1 s1, y_do ne (YPushout force clk) s = Ok (ev, s') ->
  y_do_t ne th (YPushout force clk) s = Ok (e, ev1, s1) ->
  s1 = s' /\ exists rest, handler_calls ev = handler_calls ev1 ++ rest /\ (e = EndReturn -> rest = []) /\ e <> EndTerminate.
Proof.
  intros ne th force clk s ev s' e ev1 s1 E T. cbn [y_do y_do_t] in *. destruct (negb _); [discriminate|].
  destruct (w_pushout _ _ _ _) as [[l w]| |]; cbn [bind] in *; try discriminate. injection E as <- <-.
  pose proof (give_split th l) as G. destruct (give th l) as [b l1]. cbn [fst snd] in G. injection T as <- <- <-. split; [reflexivity|].
  rewrite calls_app, calls_map2. cbn [handler_calls flat_map]. rewrite app_nil_r. destruct b.
  - destruct G as (n & a & l2 & -> & _). exists l2. rewrite calls_map2. split; [reflexivity|]. split; discriminate.
  - subst l1. exists []. rewrite calls_app, calls_map2. cbn [handler_calls flat_map app]. rewrite !app_nil_r. split; [reflexivity|]. split; [reflexivity|discriminate].
Qed.
Print Assumptions C89_pushout.
(** A time, size or value point whose push() threw still exists with its measurement.  Pushing it again at the same moment records the
    measurement once and calls no handler: everything is as if the handler had not thrown. *)
Theorem C89_point_retry : forall ne th i now clk cl s ev s' ev1 s1, simple_point s i ->
  y_do ne (YPt (MPush i now clk) cl) s = Ok (ev, s') -> y_do_t ne th (YPt (MPush i now clk) cl) s = Ok (EndThrow, ev1, s1) ->
  y_do ne (YPt (MPush i now clk) cl) s1 = Ok (filter not_handler ev, s').
Proof. exact point_retry. Qed.
Print Assumptions C89_point_retry.
(** And destroying it - the exception may be on its way through the scope of the point - calls no handler either, at whatever time: it
    cannot end the program. *)
Theorem C89_point_unwinding : forall ne th i now clk cl s ev1 s1 now2 clk2 cl2 ev2 s2, simple_point s i ->
  y_do_t ne th (YPt (MPush i now clk) cl) s = Ok (EndThrow, ev1, s1) ->
  y_do ne (YPt (MDestroy i now2 clk2) cl2) s1 = Ok (ev2, s2) ->
  handler_calls ev2 = [] /\ forall th2, y_do_t ne th2 (YPt (MDestroy i now2 clk2) cl2) s1 = Ok (EndReturn, ev2, s2).
Proof.
  intros ne th i now clk cl s ev1 s1 now2 clk2 cl2 ev2 s2 SP T E. assert (H := point_unwind ne _ _ _ _ _ _ _ _ _ _ _ _ _ SP T E).
  split; [exact H|]. intros th2. apply do_quiet; [exact E|]. rewrite H. intros m b [].
Qed.
Print Assumptions C89_point_unwinding.

(** The program of C68 up to its last pushout: two names, records of both about to be delivered. *)
Definition hy_s : sys := snd (yx_run (firstn 8 yx_ops)).
Definition hy_all : name -> adata -> bool := fun _ _ => true.
Example C89_point_witness : simple_point hy_s 2 /\
  (exists ev s', y_do ne_rev (YPt (MPush 2 112 0) no_clk) hy_s = Ok (ev, s') /\ length (handler_calls ev) = 1%nat) /\
  exists ev1 s1, y_do_t ne_rev hy_all (YPt (MPush 2 112 0) no_clk) hy_s = Ok (EndThrow, ev1, s1) /\
    exists ev2 s2, y_do ne_rev (YPt (MDestroy 2 131 0) no_clk) s1 = Ok (ev2, s2).
Proof.
  split; [vm_compute; exact I|]. split; [eexists _, _; split; vm_compute; reflexivity|].
  eexists _, _. split; [vm_compute; reflexivity|]. eexists _, _. vm_compute. reflexivity.
Qed.

(** REFUTED: a record not delivered because the handler threw on another one is delivered later.  Both names have a record; the handler
    throws on the first; the other is never seen, neither by the next pushout() nor by the destructor. *)
Theorem C89_pushout_refuted : exists s ev s0 ev1 s1 ev2 s2 ev3 s3,
  y_do ne_rev (YPushout true (fun _ => 104)) s = Ok (ev, s0) /\ length (handler_calls ev) = 2%nat /\
  y_do_t ne_rev hy_all (YPushout true (fun _ => 104)) s = Ok (EndThrow, ev1, s1) /\ length (handler_calls ev1) = 1%nat /\
  y_do ne_rev (YPushout true (fun _ => 104)) s1 = Ok (ev2, s2) /\ handler_calls ev2 = [] /\
  y_do ne_rev (YDestroy (fun _ => 104)) s2 = Ok (ev3, s3) /\ handler_calls ev3 = [].
Proof.
  exists hy_s. eexists _, _, _, _, _, _, _, _. split; [vm_compute; reflexivity|]. split; [vm_compute; reflexivity|].
  split; [vm_compute; reflexivity|]. split; [vm_compute; reflexivity|]. split; [vm_compute; reflexivity|]. split; [vm_compute; reflexivity|].
  split; vm_compute; reflexivity.
Qed.
Print Assumptions C89_pushout_refuted.
(** REFUTED: an exception of the handler can be caught.  Out of the destructor of a point or of the wrtstat object it ends the program
    (std::terminate). *)
Theorem C89_terminate_refuted :
  (exists ev1 s1, y_do_t ne_rev hy_all (YPt (MDestroy 2 112 0) no_clk) hy_s = Ok (EndTerminate, ev1, s1)) /\
  (exists ev1 s1, y_do_t ne_rev hy_all (YDestroy (fun _ => 104)) hy_s = Ok (EndTerminate, ev1, s1)).
Proof. split; eexists _, _; vm_compute; reflexivity. Qed.
Print Assumptions C89_terminate_refuted.
(** REFUTED for composite points: pushing again records the measurement once.  The handler throws on the record of the read sizes; the time
    has been recorded by then and is recorded again. *)
Definition hy_comp : list yop :=
  firstn 2 yx_ops ++ [YReg (RgCall 1 (GoAdd (SmScalar 103 6 1) 0 0)); YPt (MNew (KComp 1) (Some 1%nat) 2 0 7 9 0 100) no_clk].
Definition hy_c : sys := snd (yx_run hy_comp).
Theorem C89_composite_refuted : exists ev s0 ev1 s1 ev2 s2 ev3 s3,
  y_do ne_rev (YPt (MPush 0 112 150) no_clk) hy_c = Ok (ev, s0) /\
  y_do_t ne_rev hy_all (YPt (MPush 0 112 150) no_clk) hy_c = Ok (EndThrow, ev1, s1) /\
  y_do ne_rev (YPt (MPush 0 112 150) no_clk) s1 = Ok (ev2, s2) /\
  y_do ne_rev (YPushout true (fun _ => 113)) s2 = Ok (ev3, s3) /\
  map (fun q => (fst q, ad_count (snd q))) (handler_calls ev3) = [(na, 2); (nb, 4)] /\ p_count (p_new (KComp 1) (Some 1%nat) 2 0 7 9 0 100) = 2.
Proof.
  eexists _, _, _, _, _, _, _, _. split; [vm_compute; reflexivity|]. split; [vm_compute; reflexivity|]. split; [vm_compute; reflexivity|].
  split; [vm_compute; reflexivity|]. vm_compute. auto.
Qed.
Print Assumptions C89_composite_refuted.
