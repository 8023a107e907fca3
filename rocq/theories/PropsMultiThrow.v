(** Property C93: a multi_aggregator whose handler throws (wrtstat/multi_aggregator/). *)
From Coq Require Import ZArith List Bool Permutation Lia Arith Ascii.
From Verif Require Import Base SortFacts ModelTypes ModelAvg ModelReducer SpecReducer ModelSeparator SpecSeparator
  ModelAggregator SpecAggregator AggSafe ModelRegistry SpecRegistry ModelMulti SpecMulti MultiProofs MultiRun
  ModelThrow SpecThrow ModelMultiThrow SpecMultiThrow MultiThrowProofs MultiThrowRun MultiThrowHist
  PropsReducer PropsSeparator PropsAggregator PropsRegistry PropsMulti PropsThrow.
Import ListNotations.
Local Open Scope Z_scope.

(** A call ends with an exception only if its handler threw, on the last record it was given and on no other. *)
Theorem C93_only_handler : forall ne hash op m out m1, tm_do ne hash op m = Ok (out, m1) -> ends_at_throw op out.
Proof. exact do_ends. Qed.
Print Assumptions C93_only_handler.

(** If the handler throws on none of the records it gets, all is as in C35. *)
Theorem C93_no_throw : forall ne hash op m out m1, ma_do ne hash (tm_plain op) m = Ok (out, m1) ->
  Forall (fun q => tm_th op q = false) (mrecs out) -> tm_do ne hash op m = Ok (no_throw out, m1).
Proof. exact MultiThrowProofs.do_quiet. Qed.
Print Assumptions C93_no_throw.

(** A push() that threw can be repeated, at the same times: nothing is delivered a second time, and afterwards all is as if nothing had
    been thrown. *)
Theorem C93_push_retry : forall ne hash e n d th m b l m2 l1 m1,
  ma_do ne hash (SpecMulti.MPush e n d true) m = Ok (MAns b l, m2) -> tm_do ne hash (TmPush e n d th) m = Ok (TmThrew l1, m1) ->
  l1 = l /\ ma_do ne hash (SpecMulti.MPush e n d true) m1 = Ok (MAns b [], m2).
Proof.
  intros ne hash e n d th m b l m2 l1 m1 E T. cbn [ma_do tm_do] in *.
  destruct (ma_push ne hash e n d true m) as [[[b0 l0] m0]| |] eqn:P; cbn [bind] in E; try discriminate. injection E as -> -> ->.
  destruct (ma_push_t _ _ _ _ _ _ _) as [[[r lt] mt]| |] eqn:Q; cbn [bind] in T; try discriminate. destruct r; [discriminate|]. injection T as -> ->.
  destruct (mpush_retry ne hash _ _ _ _ _ _ _ _ _ _ P Q) as [-> R]. split; [reflexivity|]. rewrite R. reflexivity.
Qed.
Print Assumptions C93_push_retry.

(** multi_push() pushes one record after another until the handler throws; the rest of the batch, from the record whose push threw, can be
    sent again. *)
Theorem C93_multi_retry : forall ne hash ps th m l m2 l1 m1,
  ma_do ne hash (MMulti ps true) m = Ok (MAns true l, m2) -> tm_do ne hash (TmMulti ps th) m = Ok (TmThrew l1, m1) ->
  exists p1 p p2 l0 m0 lx l2, ps = p1 ++ p :: p2 /\
    ma_do ne hash (MMulti p1 true) m = Ok (MAns true l0, m0) /\
    tm_do ne hash (TmPush (fst p) (fst (snd p)) (snd (snd p)) th) m0 = Ok (TmThrew lx, m1) /\ l1 = l0 ++ lx /\
    ma_do ne hash (MMulti (p :: p2) true) m1 = Ok (MAns true l2, m2) /\ l = l1 ++ l2.
Proof.
  intros ne hash ps th m l m2 l1 m1 E T. cbn [ma_do tm_do] in *.
  destruct (ma_multi_push ne hash ps true m) as [[[b0 la] ma]| |] eqn:P; cbn [bind] in E; try discriminate. injection E as -> -> ->.
  destruct (ma_multi_push_t _ _ _ _ _) as [[[r lt] mt]| |] eqn:Q; cbn [bind] in T; try discriminate. destruct r; [|discriminate]. injection T as -> ->.
  destruct (multi_t_split ne hash _ _ _ _ _ Q) as (p1 & e & n & d & p2 & l0 & m0 & lx & -> & A & B & ->).
  rewrite multi_app, A in P. cbn [bind ma_multi_push] in P.
  destruct (ma_push ne hash e n d true m0) as [[[b lb] mb]| |] eqn:P2; cbn [bind] in P; try discriminate.
  destruct (ma_multi_push ne hash p2 true mb) as [[[b2 lc] mc]| |] eqn:M; cbn [bind] in P; try discriminate. injection P as -> <- ->.
  destruct (mpush_retry ne hash _ _ _ _ _ _ _ _ _ _ P2 B) as [-> R].
  exists p1, (e, (n, d)), p2, l0, m0, lb, lc. split; [reflexivity|]. rewrite A. split; [reflexivity|]. cbn [fst snd]. rewrite B. split; [reflexivity|].
  split; [reflexivity|]. cbn [ma_multi_push]. rewrite R. cbn [bind]. rewrite M. split; [reflexivity|]. now rewrite app_assoc.
Qed.
Print Assumptions C93_multi_retry.

(** After any history: pushout() never calls its handler (see C36), and a force_pushout() that threw can be repeated, also with another
    handler: it goes on with the record after the one it threw on, and afterwards all is as if nothing had been thrown. *)
Theorem C93_pushout : forall ne hash o, (0 < ma_hash o)%nat -> forall ops outs m ord th, Forall tm_order_ok ops ->
  tm_run ne hash (ma_new o) ops = Ok (outs, m) -> (forall l, Permutation (ord l) l) ->
  tm_do ne hash (TmPushout false ord th) m = Ok (TmRecs [], m) /\
  forall l m2 l1 m1, ma_do ne hash (MPushout true true ord) m = Ok (MRecs l, m2) ->
    tm_do ne hash (TmPushout true ord th) m = Ok (TmThrew l1, m1) ->
    exists l2, ma_do ne hash (MPushout true true ord) m1 = Ok (MRecs l2, m2) /\ l = l1 ++ l2.
Proof.
  intros ne hash o H ops outs m ord th O E Ho. pose proof (run_TQ ne hash o _ _ _ _ (TQ_new hash o H) O E) as Q. split.
  - cbn [tm_do]. rewrite (pushout_t_silent ne hash o _ _ _ Q). reflexivity.
  - intros l m2 l1 m1 P T. cbn [ma_do tm_do] in *. destruct (ma_pushout ne true true ord m) as [[la ma]| |] eqn:EP; cbn [bind] in P; try discriminate. injection P as -> ->.
    destruct (ma_pushout_t _ _ _ _ _) as [[[r lt] mt]| |] eqn:ET; cbn [bind] in T; try discriminate. destruct r; [|discriminate]. injection T as -> ->.
    destruct (mpushout_retry ne hash o _ _ _ _ _ _ _ Q Ho EP ET) as (l2 & R & ->). exists l2. rewrite R. auto.
Qed.
Print Assumptions C93_pushout.

(** Any history, with handlers that throw on whatever they like: the records given under a name that is not deleted are exactly those of one
    aggregator that received the calls made before the exceptions (C88 says what exceptions do to it) ... *)
Theorem C93_history : forall ne hash o, (0 < ma_hash o)%nat -> forall n ops outs m g, Forall tm_order_ok ops ->
  tm_run ne hash (ma_new o) ops = Ok (outs, m) -> ~ In (TmDel n) ops -> ma_get hash o m n = Some g ->
  exists c rnd ts g0 hs rs, agg_new (ma_agg o) c rnd ts = Ok g0 /\ parts n ops outs hs /\ t_run ne g0 hs = Ok (rs, g) /\
    of_name n (flat_map tm_given outs) = flat_map t_reports rs.
Proof.
  intros ne hash o H n ops outs m g O E ND G.
  destruct (run_went ne hash o n _ _ _ _ (MInv_new hash o H) O E ND) as (hs & P & W). rewrite get_new, G in W. cbn [went] in W.
  destruct W as [(W & _)|(g0 & rs & g1 & (c & rnd & ts & M) & A & B & C)]; [discriminate|]. injection B as <-. eauto 12.
Qed.
Print Assumptions C93_history.

(** ... so exceptions lose nothing and count nothing twice: what was pushed by calls that returned true is counted in exactly one of the
    records given to a handler, thrown on or not, or in the open window. *)
Theorem C93_conservation : forall ne, nth_element_ok ne -> forall hash o, (0 < ma_hash o)%nat -> forall n ops outs m g p,
  0 < so_step (ao_sep (ma_agg o)) -> Forall tm_order_ok ops -> Forall tm_typed ops ->
  tm_run ne hash (ma_new o) ops = Ok (outs, m) -> ~ In (TmDel n) ops -> ma_get hash o m n = Some g -> g_current ne g = Ok p ->
  exists c rnd ts g0 hs rs, agg_new (ma_agg o) c rnd ts = Ok g0 /\ parts n ops outs hs /\ t_run ne g0 hs = Ok (rs, g) /\
    u64 (sum_count (of_name n (flat_map tm_given outs)) + match p with Some d => ad_count d | None => 0 end) =
    u64 (declared (t_recorded true hs rs)).
Proof.
  intros ne Hne hash o H n ops outs m g p Hs O T E ND G Ep.
  destruct (C93_history ne hash o H n ops outs m g O E ND G) as (c & rnd & ts & g0 & hs & rs & A & B & C & D).
  exists c, rnd, ts, g0, hs, rs. split; [exact A|]. split; [exact B|]. split; [exact C|].
  pose proof (parts_simple n _ _ _ B) as S.
  assert (Q : g_list g = []) by (exact (proj1 (proj2 (run_TQ ne hash o _ _ _ _ (TQ_new hash o H) O E) n g G))).
  pose proof (C88_conservation ne Hne (ma_agg o) c rnd ts g0 hs rs g p Hs A) as K. rewrite Q, app_nil_r in K.
  rewrite D, (reports_sum ne _ _ _ _ S C), <- sum_app. apply K; auto.
  - clear - S. induction S as [|h hs Hh S IH]; constructor; auto. destruct h as [[]| |]; try exact I; try contradiction.
  - eapply parts_typed; eauto.
  - clear - S. induction S as [|h hs Hh S IH]; constructor; auto. destruct h as [[]| |]; try exact I; try contradiction.
Qed.
Print Assumptions C93_conservation.

(** Example: the handler throws on the record of the window 100 of "a"; the program goes on. *)
Definition wx_th (n : name) (a : adata) : bool := name_eqb n na && (ad_ts a =? 100).
Definition wx_b : list (penv * (name * rdata)) := [(mx_e, (nd, mx_d 117 5)); (mx_e, (na, mx_d 118 6)); (mx_e, (nd, mx_d 127 7))].
Definition wx_pre : list tmop := [TmPush mx_e na (mx_d 108 4) wx_th; TmPush mx_e nd (mx_d 108 4) wx_th].
Definition wx_ops : list tmop :=
  wx_pre ++ [TmMulti wx_b wx_th; TmPush mx_e na (mx_d 119 7) wx_th; TmPushout true (@rev name) (fun n _ => name_eqb n na); TmPushout true (fun l => l) wx_th].
Example wx_order : Forall tm_order_ok wx_ops.
Proof.
  repeat (constructor; [first [exact I | intros l; first [apply Permutation_refl | apply Permutation_sym, Permutation_rev]]|]). constructor.
Qed.
Definition brief (q : name * adata) : name * Z * Z := (fst q, ad_ts (snd q), ad_count (snd q)).
Example C93_witness : exists outs m g, tm_run ne_rev mx_hash (ma_new mx_o) wx_ops = Ok (outs, m) /\
  map (fun o => (threw o, map brief (tm_given o))) outs =
    [(false, []); (false, []); (true, [(nd, 100, 3); (na, 100, 3)]); (false, []); (true, [(na, 110, 3)]); (false, [(nd, 110, 3)])] /\
  Forall tm_order_ok wx_ops /\ Forall tm_typed wx_ops /\ ~ In (TmDel na) wx_ops /\ ma_get mx_hash mx_o m na = Some g /\ g_current ne_rev g = Ok None /\
  sum_count (of_name na (flat_map tm_given outs)) = 6.
Proof.
  eexists _, _, _. split; [vm_compute; reflexivity|]. split; [vm_compute; reflexivity|]. split; [exact wx_order|]. split.
  - repeat (constructor; [cbn; first [exact I | split; [typed|exact I] | repeat (constructor; [split; [typed|exact I]|]); constructor]|]). constructor.
  - split; [cbn; intuition discriminate|]. split; [vm_compute; reflexivity|]. split; vm_compute; reflexivity.
Qed.
(** The hypotheses of the retry theorems are met. *)
Example C93_retry_witness : exists outs m, tm_run ne_rev mx_hash (ma_new mx_o) wx_pre = Ok (outs, m) /\
  (exists l m2 l1 m1, ma_do ne_rev mx_hash (SpecMulti.MPush mx_e na (mx_d 118 6) true) m = Ok (MAns true l, m2) /\ l <> [] /\
     tm_do ne_rev mx_hash (TmPush mx_e na (mx_d 118 6) wx_th) m = Ok (TmThrew l1, m1)) /\
  (exists l m2 l1 m1, ma_do ne_rev mx_hash (MMulti wx_b true) m = Ok (MAns true l, m2) /\ length l = 3%nat /\
     tm_do ne_rev mx_hash (TmMulti wx_b wx_th) m = Ok (TmThrew l1, m1) /\ length l1 = 2%nat) /\
  (exists l m2 l1 m1, ma_do ne_rev mx_hash (MPushout true true (@rev name)) m = Ok (MRecs l, m2) /\ length l = 2%nat /\
     tm_do ne_rev mx_hash (TmPushout true (@rev name) wx_th) m = Ok (TmThrew l1, m1) /\ length l1 = 1%nat).
Proof.
  eexists _, _. split; [vm_compute; reflexivity|]. split; [|split]; eexists _, _, _, _.
  - split; [vm_compute; reflexivity|]. split; [discriminate|]. vm_compute; reflexivity.
  - split; [vm_compute; reflexivity|]. split; [reflexivity|]. split; [vm_compute; reflexivity|]. reflexivity.
  - split; [vm_compute; reflexivity|]. split; [reflexivity|]. split; [vm_compute; reflexivity|]. reflexivity.
Qed.

(** REFUTED: a multi_push() that threw can be repeated as a whole, or left as it is.  The records before the exception are counted twice
    (here "dd": 9 pushed in three records of 3, 12 counted), or those from it on are lost (here the windows 110 of "a" and 120 of "dd"). *)
Theorem C93_multi_refuted :
  (exists outs m, tm_run ne_rev mx_hash (ma_new mx_o) (wx_pre ++ [TmMulti wx_b wx_th; TmMulti wx_b wx_th; TmPushout true (fun l => l) wx_th]) = Ok (outs, m) /\
     map threw outs = [false; false; true; false; false] /\
     sum_count (of_name nd (flat_map tm_given outs)) = 12 /\ declared (map (fun d => sm_op (SmRed d)) [mx_d 108 4; mx_d 117 5; mx_d 127 7]) = 9) /\
  (exists outs m, tm_run ne_rev mx_hash (ma_new mx_o) (wx_pre ++ [TmMulti wx_b wx_th; TmPushout true (fun l => l) wx_th]) = Ok (outs, m) /\
     map threw outs = [false; false; true; false] /\ map brief (flat_map tm_given outs) = [(nd, 100, 3); (na, 100, 3); (nd, 110, 3)]).
Proof.
  split; eexists _, _.
  - split; [vm_compute; reflexivity|]. split; [vm_compute; reflexivity|]. split; vm_compute; reflexivity.
  - split; [vm_compute; reflexivity|]. split; vm_compute; reflexivity.
Qed.
Print Assumptions C93_multi_refuted.
