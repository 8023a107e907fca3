(** Property C104: a multi_aggregator when memory runs out (wrtstat/multi_aggregator/). *)
From Coq Require Import ZArith List Bool Permutation Lia Arith Ascii.
From Verif Require Import Base SortFacts ModelTypes ModelAvg ModelReducer SpecReducer ModelSeparator SpecSeparator
  ModelAggregator SpecAggregator ModelRegistry SpecRegistry ModelMulti SpecMulti MultiProofs MultiRun ModelAlloc SpecAlloc ModelAggAlloc SpecAggAlloc AggAllocProofs
  MultiThrowHist ModelMultiAlloc SpecMultiAlloc MultiAllocProofs MultiAllocHist
  PropsReducer PropsAggregator PropsRegistry PropsMulti PropsAggAlloc.
Import ListNotations.
Local Open Scope Z_scope.

(** Without a failure all is as in C35. *)
Theorem C104_no_failure : forall ne hash op m, fm_fault op = false ->
  fm_do ne hash op m = ('(out, m1) <- ma_do ne hash (fm_plain op) m ;; Ok (fm_ret out, m1)).
Proof. exact do_plain. Qed.
Print Assumptions C104_no_failure.
(** A call that returns has done what it always does: no failure is swallowed. *)
Theorem C104_returned : forall ne hash op m out m1, fm_do ne hash op m = Ok (out, m1) -> fm_threw out = false ->
  exists o, ma_do ne hash (fm_plain op) m = Ok (o, m1) /\ out = fm_ret o.
Proof. exact do_back. Qed.
Print Assumptions C104_returned.

(** A push() that fails before it gets to the aggregator, or in the aggregator before anything is changed, has given and destroyed nothing, and
    can be repeated: every name is as it was - but a name that was not there may be there now (see C104_trace_refuted). *)
Theorem C104_up_front : forall ne hash o, (0 < ma_hash o)%nat -> forall ops outs m e n d f l w m1, Forall fm_order_ok ops ->
  fm_run ne hash (ma_new o) ops = Ok (outs, m) -> fm_do ne hash (FmPush e n d f) m = Ok (FmThrew l w, m1) ->
  match f with Some (MfAgg x) => up_front (Some x) = true | _ => True end ->
  l = [] /\ w = [] /\ (forall k, k <> n \/ ma_get hash o m n <> None \/ f = Some MfStart \/ f = Some MfNew -> ma_get hash o m1 k = ma_get hash o m k) /\
  (ma_get hash o m n = None -> ma_get hash o m1 n = None \/
     exists g, agg_new (ma_agg o) (pe_clock e) (pe_rnd e) (ri_ts (rd_info d)) = Ok g /\ ma_get hash o m1 n = Some g).
Proof.
  intros ne hash o H ops outs m e n d f l w m1 O E D U.
  destruct (frun_TQ ne hash o _ _ _ _ (TQ_new hash o H) O E) as [I _]. cbn [fm_do] in D.
  destruct (ma_push_f _ _ _ _ _ _ _) as [[[[r l0] w0] m0]| |] eqn:P; cbn [bind] in D; try discriminate. destruct r; [discriminate|]. injection D as -> -> ->.
  destruct (push_f_sim ne hash o _ _ _ _ _ _ _ _ _ I P) as (I1 & [(_ & -> & -> & -> & _)|(g & t & g1 & A & B & -> & -> & [U1 U2] & R)]).
  - split; [reflexivity|]. split; [reflexivity|]. split; auto.
  - destruct t as [x|recs lost]; [congruence|]. destruct f as [[| |x]|]; try (rewrite call_plain in B; destruct (g_call _ _ _) as [[? ?]| |]; discriminate).
    destruct (C94_up_front _ _ _ _ _ _ _ B U) as (-> & -> & ->). split; [reflexivity|]. split; [reflexivity|]. split.
    + intros k [Hk|[Hk|[Hk|Hk]]]; [auto| |discriminate|discriminate]. destruct (list_eq_dec ascii_dec k n) as [->|N]; [|auto].
      rewrite U1. destruct (ma_get hash o m n); congruence.
    + intros G. right. rewrite G in A. exists g. auto.
Qed.
Print Assumptions C104_up_front.

(** multi_push() has pushed everything before the record whose push failed, and nothing after it. *)
Theorem C104_multi : forall ne hash ps f m l w m1, fm_do ne hash (FmMulti ps f) m = Ok (FmThrew l w, m1) ->
  exists p1 p p2 x l0 m0 lx, ps = p1 ++ p :: p2 /\ f = Some (length p1, x) /\ ma_do ne hash (MMulti p1 true) m = Ok (MAns true l0, m0) /\
    fm_do ne hash (FmPush (fst p) (fst (snd p)) (snd (snd p)) (Some x)) m0 = Ok (FmThrew lx w, m1) /\ l = l0 ++ lx.
Proof.
  intros ne hash ps f m l w m1 E. cbn [fm_do] in E.
  destruct (ma_multi_push_f _ _ _ _ _) as [[[[r l0] w0] m0]| |] eqn:P; cbn [bind] in E; try discriminate. destruct r; [|discriminate]. injection E as -> -> ->.
  destruct (multi_f_split ne hash _ _ _ _ _ _ P) as (p1 & e & n & d & p2 & x & la & ma & lx & -> & -> & A & B & ->).
  exists p1, (e, (n, d)), p2, x, la, ma, lx. split; [reflexivity|]. split; [reflexivity|]. cbn [ma_do fm_do fst snd]. rewrite A, B. auto.
Qed.
Print Assumptions C104_multi.

(** After any history: pushout() does nothing (see C36) and cannot fail; a force_pushout() that failed can be repeated: what the two give to
    their handlers, together with the record destroyed, is what one that does not fail gives, and afterwards all is as after that one. *)
Theorem C104_pushout : forall ne hash o, (0 < ma_hash o)%nat -> forall ops outs m ord f, Forall fm_order_ok ops ->
  fm_run ne hash (ma_new o) ops = Ok (outs, m) -> (forall l, Permutation (ord l) l) ->
  fm_do ne hash (FmPushout false ord f) m = Ok (FmRecs [], m) /\
  forall l m2 l1 w m1, ma_do ne hash (MPushout true true ord) m = Ok (MRecs l, m2) ->
    fm_do ne hash (FmPushout true ord f) m = Ok (FmThrew l1 w, m1) ->
    exists l2, ma_do ne hash (MPushout true true ord) m1 = Ok (MRecs l2, m2) /\ l = l1 ++ w ++ l2.
Proof.
  intros ne hash o H ops outs m ord f O E Ho. pose proof (frun_TQ ne hash o _ _ _ _ (TQ_new hash o H) O E) as Q. split.
  - cbn [fm_do]. rewrite (pushout_f_silent ne hash o _ _ _ Q). reflexivity.
  - intros l m2 l1 w m1 P T. cbn [ma_do fm_do] in *. destruct (ma_pushout ne true true ord m) as [[la ma]| |] eqn:EP; cbn [bind] in P; try discriminate. injection P as -> ->.
    destruct (ma_pushout_f _ _ _ _ _) as [[[[r lt] wt] mt]| |] eqn:ET; cbn [bind] in T; try discriminate. destruct r; [|discriminate]. injection T as -> -> ->.
    destruct (fpushout_retry ne hash o _ _ _ _ _ _ _ _ Q Ho EP ET) as (l2 & R & ->). exists l2. rewrite R. auto.
Qed.
Print Assumptions C104_pushout.

(** One failed call destroys at most one record. *)
Theorem C104_lost : forall ne hash o, (0 < ma_hash o)%nat -> forall ops outs m, Forall fm_order_ok ops ->
  fm_run ne hash (ma_new o) ops = Ok (outs, m) -> (length (flat_map fm_lost outs) <= length (filter fm_threw outs))%nat.
Proof.
  intros ne hash o H. assert (G : forall ops m outs m1, TQ hash o m -> Forall fm_order_ok ops -> fm_run ne hash m ops = Ok (outs, m1) ->
    (length (flat_map fm_lost outs) <= length (filter fm_threw outs))%nat).
  { assert (PL : forall m e n d f r l w m1, MInv hash o m -> ma_push_f ne hash e n d f m = Ok (r, l, w, m1) -> (length w <= 1)%nat).
    { intros m e n d f r l w m1 I P. destruct (push_f_sim ne hash o _ _ _ _ _ _ _ _ _ I P) as (_ & [(_ & _ & -> & _)|(g & t & g1 & _ & B & _ & -> & _)]); [cbn; lia|].
      rewrite map_length. destruct t as [x|recs lost]; [cbn; lia|]. cbn [flost]. destruct (call_threw ne _ _ _ _ _ _ B) as [(_ & _ & -> & _)|[(_ & y & ->)|(_ & ->)]]; cbn; lia. }
    induction ops as [|op ops IH]; intros m outs m1 Q O E; cbn [fm_run] in E; [injection E as <- <-; cbn; lia|]. inversion O; subst.
    destruct (fm_do _ _ _ _) as [[out m2]| |] eqn:D; cbn [bind] in E; try discriminate. destruct (fm_run _ _ _ _) as [[outs2 m3]| |] eqn:R; cbn [bind] in E; try discriminate.
    injection E as <- <-. specialize (IH _ _ _ (fdo_TQ ne hash o _ _ _ _ Q H2 D) H3 R). cbn [flat_map filter]. rewrite app_length.
    destruct out as [b l|l|a b|l w]; cbn [fm_lost fm_threw length]; try exact IH. enough (length w <= 1)%nat by lia.
    destruct op as [e n d f|ps f|n|force ord f|]; cbn [fm_do] in D.
    - destruct (ma_push_f _ _ _ _ _ _ _) as [[[[r l0] w0] m0]| |] eqn:P; cbn [bind] in D; try discriminate. destruct r; [discriminate|]. injection D as _ -> _. exact (PL _ _ _ _ _ _ _ _ _ (proj1 Q) P).
    - destruct (ma_multi_push_f _ _ _ _ _) as [[[[r l0] w0] m0]| |] eqn:P; cbn [bind] in D; try discriminate. destruct r; [|discriminate]. injection D as _ -> _.
      destruct (multi_f_split ne hash _ _ _ _ _ _ P) as (p1 & e & n & d & p2 & x & la & ma & lx & _ & _ & A & B & _). refine (PL _ _ _ _ _ _ _ _ _ _ B).
      assert (A2 : ma_multi_push_f ne hash p1 None m = Ok (false, la, [], ma)) by (rewrite multi_plain, A; reflexivity). exact (proj1 (fmulti_TQ ne hash o _ _ _ _ _ _ _ Q A2)).
    - destruct (ma_del _ _ _) as [[b m0]| |]; cbn [bind] in D; discriminate.
    - destruct (ma_pushout_f _ _ _ _ _) as [[[[r l0] w0] m0]| |] eqn:P; cbn [bind] in D; try discriminate. destruct r; [|discriminate]. injection D as _ -> _.
      exact (proj2 (proj2 (pushout_f_sim ne hash o _ _ _ _ _ _ _ _ (proj1 Q) H2 P))).
    - discriminate. }
  intros ops outs m O E. exact (G _ _ _ _ (TQ_new hash o H) O E).
Qed.
Print Assumptions C104_lost.

(** Any history of calls and failures: the records given or destroyed under a name that is not deleted are exactly those of one aggregator that
    received the calls that got to it, with their failures (C94 says what these do to it) ... *)
Theorem C104_history : forall ne hash o, (0 < ma_hash o)%nat -> forall n ops outs m g, Forall fm_order_ok ops ->
  fm_run ne hash (ma_new o) ops = Ok (outs, m) -> ~ In (FmDel n) ops -> ma_get hash o m n = Some g ->
  exists c rnd ts g0 hs es, agg_new (ma_agg o) c rnd ts = Ok g0 /\ fparts n ops outs hs /\ gf_run ne g0 hs = Ok (es, g) /\
    Permutation (of_name n (flat_map fm_given outs) ++ of_name n (flat_map fm_lost outs)) (flat_map f_reports es).
Proof.
  intros ne hash o H n ops outs m g O E ND G.
  destruct (run_fwent ne hash o n _ _ _ _ (MInv_new hash o H) O E ND) as (hs & P & W). rewrite get_new, G in W. cbn [fwent] in W.
  destruct W as [(W & _)|(g0 & es & g1 & (c & rnd & ts & M) & A & B & C)]; [discriminate|]. injection B as <-. eauto 12.
Qed.
Print Assumptions C104_history.
(** ... so the counts of the records given, of those destroyed and of the open window add up to the events recorded under that name: those of the
    pushes that returned true (a push that failed has recorded no event). *)
Theorem C104_conservation : forall ne, nth_element_ok ne -> forall hash o, (0 < ma_hash o)%nat -> forall n ops outs m g p,
  Forall fm_order_ok ops -> Forall fm_typed ops ->
  fm_run ne hash (ma_new o) ops = Ok (outs, m) -> ~ In (FmDel n) ops -> ma_get hash o m n = Some g -> g_current ne g = Ok p ->
  exists c rnd ts g0 hs es, agg_new (ma_agg o) c rnd ts = Ok g0 /\ fparts n ops outs hs /\ gf_run ne g0 hs = Ok (es, g) /\
    u64 (sum_count (of_name n (flat_map fm_given outs)) + sum_count (of_name n (flat_map fm_lost outs)) + match p with Some d => ad_count d | None => 0 end) =
    u64 (accepted hs es).
Proof.
  intros ne Hne hash o H n ops outs m g p O T E ND G Ep.
  destruct (C104_history ne hash o H n ops outs m g O E ND G) as (c & rnd & ts & g0 & hs & es & A & B & C & D).
  exists c, rnd, ts, g0, hs, es. split; [exact A|]. split; [exact B|]. split; [exact C|].
  pose proof (fparts_simple n _ _ _ B) as S.
  pose proof (proj2 (frun_TQ ne hash o _ _ _ _ (TQ_new hash o H) O E) n g G) as [Q1 Q2].
  pose proof (C94_conservation ne Hne (ma_agg o) c rnd ts g0 hs es g p A) as K. rewrite Q1, Q2, !app_nil_r in K.
  rewrite <- sum_app, (sumc_perm _ _ D), (freports_sum ne _ _ _ _ S C), <- (events_accepted ne _ _ _ _ S C). apply K; auto.
  - eapply fparts_typed; eauto.
  - clear - S. induction S as [|h hs Hh S IH]; constructor; auto. destruct h as [[] ?]; try exact I; try contradiction.
Qed.
Print Assumptions C104_conservation.

(** Example: three names, a failure of each kind. *)
Definition ma_b : list (penv * (name * rdata)) := [(mx_e, (nd, mx_d 117 5)); (mx_e, (na, mx_d 118 6)); (mx_e, (nd, mx_d 127 7))].
Definition ma_ops : list fmop :=
  [FmPush mx_e na (mx_d 108 4) None; FmPush mx_e nb (mx_d 108 4) (Some MfStart); FmPush mx_e nb (mx_d 108 4) (Some MfNew); FmSize;
   FmPush mx_e nd (mx_d 108 4) None; FmMulti ma_b (Some (1%nat, MfAgg GfQueue)); FmPush mx_e na (mx_d 118 3) (Some (MfAgg (GfValue 0 FRow))); FmPush mx_e na (mx_d 119 7) None; FmPush mx_e nb (mx_d 118 1) (Some (MfAgg GfStart)); FmSize;
   FmPush mx_e nd (mx_d 127 7) (Some (MfAgg GfDetach));
   FmPushout true (@rev name) (Some (na, PfDetach)); FmPushout true (fun l => l) (Some (nd, PfRequest)); FmPushout true (fun l => l) None; FmPush mx_e na (mx_d 131 2) None].
Example ma_order : Forall fm_order_ok ma_ops.
Proof.
  repeat (constructor; [first [exact I | intros l; first [apply Permutation_refl | apply Permutation_sym, Permutation_rev]]|]). constructor.
Qed.
Definition mbrief (q : name * adata) : name * Z * Z := (fst q, ad_ts (snd q), ad_count (snd q)).
Example C104_witness : exists outs m g p, fm_run ne_rev mx_hash (ma_new mx_o) ma_ops = Ok (outs, m) /\ ma_get mx_hash mx_o m na = Some g /\ g_current ne_rev g = Ok (Some p) /\
  map (fun o => (fm_threw o, map mbrief (fm_given o), map mbrief (fm_lost o))) outs =
    [(false, [], []); (true, [], []); (true, [], []); (false, [], []);
     (false, [], []); (true, [(nd, 100, 3)], [(na, 100, 3)]); (true, [], []); (false, [], []); (true, [], []); (false, [], []);
     (true, [], []); (true, [], []); (true, [(na, 110, 3)], [(nd, 110, 3)]); (false, [], []); (false, [], [])] /\
  nth_error outs 3 = Some (FmSizes 1 2) /\ (exists c, nth_error outs 9 = Some (FmSizes 3 c)) /\
  Forall fm_order_ok ma_ops /\ Forall fm_typed ma_ops /\ ~ In (FmDel na) ma_ops /\ ad_count p = 3.
Proof.
  eexists _, _, _, _. split; [vm_compute; reflexivity|]. split; [vm_compute; reflexivity|]. split; [vm_compute; reflexivity|]. split; [vm_compute; reflexivity|].
  split; [vm_compute; reflexivity|]. split; [eexists; vm_compute; reflexivity|]. split; [exact ma_order|]. split.
  - repeat (constructor; [cbn; first [exact I | split; [typed|exact I] | repeat (constructor; [split; [typed|exact I]|]); constructor]|]). constructor.
  - split; [cbn; intuition discriminate|]. vm_compute; reflexivity.
Qed.

(** The hypotheses of C104_up_front, C104_multi and C104_pushout are met. *)
Example C104_retry_witness : exists outs m, fm_run ne_rev mx_hash (ma_new mx_o) (firstn 5 ma_ops) = Ok (outs, m) /\
  (exists m1, fm_do ne_rev mx_hash (FmPush mx_e na (mx_d 118 6) (Some (MfAgg GfDetach))) m = Ok (FmThrew [] [], m1) /\ ma_get mx_hash mx_o m na <> None) /\
  (exists l w m1, fm_do ne_rev mx_hash (FmMulti ma_b (Some (1%nat, MfAgg GfQueue))) m = Ok (FmThrew l w, m1) /\ length l = 1%nat /\ length w = 1%nat) /\
  (exists l m2 l1 w m1, ma_do ne_rev mx_hash (MPushout true true (@rev name)) m = Ok (MRecs l, m2) /\ length l = 2%nat /\
     fm_do ne_rev mx_hash (FmPushout true (@rev name) (Some (na, PfRequest))) m = Ok (FmThrew l1 w, m1) /\ length w = 1%nat).
Proof.
  eexists _, _. split; [vm_compute; reflexivity|]. split; [|split].
  - eexists. split; [vm_compute; reflexivity|]. discriminate.
  - eexists _, _, _. split; [vm_compute; reflexivity|]. split; reflexivity.
  - eexists _, _, _, _, _. split; [vm_compute; reflexivity|]. split; [reflexivity|]. split; [vm_compute; reflexivity|]. reflexivity.
Qed.

(** REFUTED: a push() that failed has left no trace.  "b" is in size() although nothing was ever recorded under it, and its window is that of the
    failed push: an older record, which would have been accepted, is refused. *)
Theorem C104_trace_refuted :
  (exists m, fm_run ne_rev mx_hash (ma_new mx_o) [FmPush mx_e nb (mx_d 128 4) (Some (MfAgg GfStart)); FmSize; FmPush mx_e nb (mx_d 108 4) None] =
     Ok ([FmThrew [] []; FmSizes 1 0; FmAns false []], m)) /\
  (exists m, fm_run ne_rev mx_hash (ma_new mx_o) [FmSize; FmPush mx_e nb (mx_d 108 4) None] = Ok ([FmSizes 0 0; FmAns true []], m)).
Proof. split; eexists; vm_compute; reflexivity. Qed.
Print Assumptions C104_trace_refuted.
(** REFUTED: what was recorded before the memory ran out is reported.  The record of an accepted push is destroyed by a force_pushout() that fails, or
    by a later push that fails; repeating the call does not bring it back. *)
Theorem C104_lost_refuted :
  (exists a m, fm_run ne_rev mx_hash (ma_new mx_o)
     [FmPush mx_e na (mx_d 108 4) None; FmPushout true (fun l => l) (Some (na, PfRequest)); FmPushout true (fun l => l) None] =
     Ok ([FmAns true []; FmThrew [] [(na, a)]; FmRecs []], m) /\ ad_ts a = 100 /\ ad_count a = 3) /\
  (exists a b m, fm_run ne_rev mx_hash (ma_new mx_o)
     [FmPush mx_e na (mx_d 108 4) None; FmPush mx_e na (mx_d 118 5) (Some (MfAgg GfQueue)); FmPush mx_e na (mx_d 118 5) None; FmPushout true (fun l => l) None] =
     Ok ([FmAns true []; FmThrew [] [(na, a)]; FmAns true []; FmRecs [(na, b)]], m) /\ ad_ts a = 100 /\ ad_count a = 3 /\ ad_ts b = 110 /\ ad_count b = 3).
Proof.
  split; [eexists _, _|eexists _, _, _]; (split; [vm_compute; reflexivity|]); vm_compute; auto.
Qed.
Print Assumptions C104_lost_refuted.
(** REFUTED: a force_pushout() that failed for one name has served the others.  "dd" is traversed after "a" and stays where it is. *)
Theorem C104_others_refuted : exists a m,
  fm_run ne_rev mx_hash (ma_new mx_o) [FmPush mx_e na (mx_d 108 4) None; FmPush mx_e nd (mx_d 108 4) None; FmPushout true (fun l => l) (Some (na, PfDetach));
                                       FmPush mx_e nd (mx_d 118 4) None] =
  Ok ([FmAns true []; FmAns true []; FmThrew [] []; FmAns true [(nd, a)]], m) /\ ad_ts a = 100.
Proof. eexists _, _. split; [vm_compute; reflexivity|]. reflexivity. Qed.
Print Assumptions C104_others_refuted.
(** REFUTED: a multi_push() that failed can be repeated as a whole: "dd" is counted 6 times instead of 3. *)
Theorem C104_batch_refuted : exists lost a m,
  let b := [(mx_e, (nd, mx_d 108 5)); (mx_e, (na, mx_d 108 6))] in
  fm_run ne_rev mx_hash (ma_new mx_o) [FmMulti b (Some (1%nat, MfNew)); FmMulti b None; FmPush mx_e nd (mx_d 118 4) None] =
  Ok ([FmThrew [] lost; FmAns true []; FmAns true [(nd, a)]], m) /\ lost = [] /\ ad_count a = 6.
Proof. eexists _, _, _. split; [vm_compute; reflexivity|]. split; reflexivity. Qed.
Print Assumptions C104_batch_refuted.
