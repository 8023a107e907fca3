(** Property C91: a registry some of whose calls are left by an exception (wrtstat/aggregator/aggregator_registry.cpp,
    wrtstat/system/dict.hpp). *)
From Coq Require Import ZArith List Bool Permutation Lia Arith Ascii.
From Verif Require Import Base SortFacts ModelTypes ModelAvg ModelReducer SpecReducer ModelSeparator SpecSeparator
  ModelAggregator SpecAggregator ModelRegistry SpecRegistry RegProofs RegFinal ModelFault SpecFault FaultProofs FaultFinal
  PropsReducer PropsSeparator PropsAggregator PropsRegistry.
Import ListNotations.
Local Open Scope Z_scope.

(** Example: every kind of failure but those refuted below.  The id taken by the first attempt at "b" is lost; the second attempt leaves
    the name without an aggregator, the third makes it; del of "a" fails to release its id; a pop_all loses the record of "b". *)
Definition xx_ops : list xop :=
  [XOp (RgCreate rx_e na 108); XOp (RgCall 8 (GoAdd (SmScalar 103 7 1) 0 0)); XCreate XDict rx_e nb 108; XCreate XNew rx_e nb 108;
   XOp (RgCreate rx_e nb 108); XOp (RgCall 18 (GoAdd (SmScalar 104 9 1) 0 0)); XDel na; XOp (RgCall 8 (GoAdd (SmScalar 103 7 1) 0 0));
   XOp (RgCreate rx_e na 108); XOp (RgCall 8 (GoAdd (SmScalar 105 2 1) 0 0)); XOp (RgCreate rx_e nc 108);
   XOp (RgCall 23 (GoAdd (SmScalar 106 3 1) 0 0)); XPopAll 1 true (fun _ => 108)].
Definition xx_r : registry := match x_run ne_rev (rg_new rx_o) xx_ops with Ok (_, r) => r | _ => rg_new rx_o end.
Example xx_run : exists outs, x_run ne_rev (rg_new rx_o) xx_ops = Ok (outs, xx_r) /\
  map (fun o => match o with XRet (RId id) => Some id | _ => None end) outs =
    [Some 8; None; None; None; Some 18; None; None; None; Some 8; None; Some 23; None; None] /\
  nth 2 outs (XRet RUnit) = XThrew /\ nth 3 outs (XRet RUnit) = XThrew /\ nth 6 outs (XRet RUnit) = XThrew /\
  match nth 12 outs (XRet RUnit) with XPopThrew l p => map fst l = [na] /\ fst p = nb | _ => False end.
Proof. eexists. split; [vm_compute; reflexivity|]. vm_compute. auto 10. Qed.
Example xx_between : Forall not_between xx_ops.
Proof. repeat constructor. Qed.
Example xx_reach : x_reachable ne_rev rx_o 13 xx_r.
Proof. exists xx_ops. destruct xx_run as (outs & E & _). exists outs. split; auto. split; [apply xx_between|exact E]. Qed.
Example xx_fits : fits rx_o 13. Proof. unfold fits. vm_compute. repeat split; congruence. Qed.
Example xx_clean : x_all_clean ne_rev (rg_new rx_o) xx_ops.
Proof.
  cbn [x_all_clean xx_ops]. repeat (split; [vm_compute; first [exact Logic.I|left; discriminate]|];
    match goal with |- match ?t with _ => _ end => let v := eval vm_compute in t in change t with v end; cbv iota).
  exact Logic.I.
Qed.

(** For every history of calls, failing or not, that do not use foreign ids (see C30) and do not fail between the two tables of names
    (see [C91_index_refuted]), and for every name: the answers to the calls addressed to that name are those a single aggregator of its
    own would give to just these calls.  What a failing call is for that name says [x_addressed]: a creation that threw is nothing, unless
    it was the initializer that threw, then it is a creation without data; a del that threw is a del; a pop_all that threw has popped the
    names up to the one whose record it lost. *)
Theorem C91_isolation : forall ne o n ops outs r, n <> [] -> fits o (length ops) -> Forall not_between ops -> x_all_clean ne (rg_new o) ops ->
  x_run ne (rg_new o) ops = Ok (outs, r) ->
  exists c, cell_run ne (rgo_agg o) (mk_cell None true (rgo_initializer o)) (map fst (x_project ne n (rg_new o) ops))
            = Ok (map snd (x_project ne n (rg_new o) ops), c) /\
    (forall g, cl_agg c = Some g <-> exists id s, registered r n id s g) /\ cl_enabled c = rg_enabled r /\ cl_init c = rg_initializer r.
Proof. exact x_isolation. Qed.
Print Assumptions C91_isolation.

(** With the default id_step = 1 the restriction on foreign ids is void. *)
Theorem C91_step1_clean : forall ne o ops, rgo_step o = 1 -> fits o (length ops) -> Forall not_between ops ->
  Forall (fun op => match op with XOp op => id_ok op | _ => True end) ops -> x_all_clean ne (rg_new o) ops.
Proof. intros ne o ops S1 F NB B. exact (x_clean_step1 ne o S1 ops 0 (rg_new o) _ F (XI_new o) NB B). Qed.
Print Assumptions C91_step1_clean.

Example C91_witness :
  map fst (x_project ne_rev nb (rg_new rx_o) xx_ops) =
    [CoCreate rx_e 108; CoCall (GoAdd (SmScalar 104 9 1) 0 0); CoPopAll true 108] /\
  map fst (x_project ne_rev na (rg_new rx_o) xx_ops) =
    [CoCreate rx_e 108; CoCall (GoAdd (SmScalar 103 7 1) 0 0); CoDel; CoCall (GoAdd (SmScalar 103 7 1) 0 0); CoCreate rx_e 108;
     CoCall (GoAdd (SmScalar 105 2 1) 0 0); CoPopAll true 108] /\
  map fst (x_project ne_rev nc (rg_new rx_o) xx_ops) = [CoCreate rx_e 108; CoCall (GoAdd (SmScalar 106 3 1) 0 0)] /\
  exists a, nth 2 (map snd (x_project ne_rev nb (rg_new rx_o) xx_ops)) CUnit = CPopped (Some a) /\ ad_count a = 1 /\ ad_min a = 9.
Proof.
  split; [vm_compute; reflexivity|]. split; [vm_compute; reflexivity|]. split; [vm_compute; reflexivity|].
  eexists. split; [vm_compute; reflexivity|]. vm_compute. auto.
Qed.

(** A call that returns has done what it does when nothing fails. *)
Theorem C91_returned : forall ne op r out r1, x_do ne op r = Ok (XRet out, r1) -> rg_do ne (plain op) r = Ok (out, r1).
Proof. exact x_returned. Qed.
Print Assumptions C91_returned.
Example C91_returned_witness : exists id r1, x_do ne_rev (XCreate XNew rx_e na 108) xx_r = Ok (XRet (RId id), r1) /\ id = 8.
Proof. eexists _, _. split; [vm_compute; reflexivity|vm_compute; reflexivity]. Qed.

(** Two ids never have the same name, whatever has failed. *)
Theorem C91_names : forall ne o N r id id', fits o N -> x_reachable ne o N r -> rg_get_name id r <> [] -> rg_get_name id r = rg_get_name id' r -> id = id'.
Proof. exact x_names. Qed.
Print Assumptions C91_names.
Example C91_names_witness : rg_get_name 8 xx_r = na /\ rg_get_name 13 xx_r = [] /\ rg_get_name 18 xx_r = nb /\ rg_get_name 23 xx_r = nc.
Proof. vm_compute. auto. Qed.

(** create_aggregator, failing or not, in any such state.  Other names keep their ids and their aggregators, with all that is in them.  If
    it returns an id, the name is registered with it: with the aggregator it had, or with one as a new registry would make.  If it throws,
    the name was not registered; it is not afterwards, unless it was the initializer that threw: then it has an aggregator without data. *)
Theorem C91_create : forall ne o N x e n now r res r1, fits o (S N) -> x_reachable ne o N r -> n <> [] -> x <> Some XIndex ->
  rg_create_x ne x e n now r = Ok (res, r1) ->
  rg_enabled r1 = rg_enabled r /\ rg_initializer r1 = rg_initializer r /\
  (forall m id s g, m <> n -> (registered r1 m id s g <-> registered r m id s g)) /\
  match res with
  | Some id => exists s g, registered r1 n id s g /\
      ((exists i s' g', registered r n i s' g') -> registered r n id s g) /\
      ((forall i s' g', ~ registered r n i s' g') ->
         exists c, cell_create ne (rgo_agg o) e now (mk_cell None (rg_enabled r) (rg_initializer r)) = Ok (g, c))
  | None => (forall i s g, ~ registered r n i s g) /\
      match x with
      | Some XInit => exists id s g, registered r1 n id s g /\ agg_new (rgo_agg o) (ce_clock e) (ce_rnd e) now = Ok g
      | _ => forall i s g, ~ registered r1 n i s g
      end
  end.
Proof. exact x_created. Qed.
Print Assumptions C91_create.

(** A second attempt after one that threw.  If it was an allocation that failed, the second attempt gives the name an aggregator as a new
    registry would make it, initial data included. *)
Theorem C91_retry : forall ne o N x e n now r r1 e2 now2 id r2, fits o (S (S N)) -> x_reachable ne o N r -> n <> [] -> x <> XIndex ->
  rg_create_x ne (Some x) e n now r = Ok (None, r1) -> rg_create ne e2 n now2 r1 = Ok (id, r2) ->
  match x with
  | XInit => r2 = r1
  | _ => exists s g c, registered r2 n id s g /\
           cell_create ne (rgo_agg o) e2 now2 (mk_cell None (rg_enabled r) (rg_initializer r)) = Ok (g, c)
  end.
Proof. exact x_retry. Qed.
Print Assumptions C91_retry.
Definition nd : name := ["d"%char].
Example C91_retry_witness : fits rx_o 15 /\ exists r1 id r2, rg_create_x ne_rev (Some XResize) rx_e nd 108 xx_r = Ok (None, r1) /\
  rg_get_name 28 r1 = nd /\ rg_get 28 r1 = Ok None /\ rg_create ne_rev rx_e nd 108 r1 = Ok (id, r2) /\ id = 28.
Proof.
  split; [unfold fits; vm_compute; repeat split; congruence|]. eexists _, _, _. split; [vm_compute; reflexivity|].
  split; [vm_compute; reflexivity|]. split; [vm_compute; reflexivity|]. split; [vm_compute; reflexivity|reflexivity].
Qed.

(** pop_all that throws: the record it had just popped is nowhere, the names up to that one (by id) have been popped, their records are in
    the list of the caller, each once; the other names are as they were. *)
Theorem C91_pop_all : forall ne o N i f clk r l m a r1, fits o N -> x_reachable ne o N r -> x_do ne (XPopAll i f clk) r = Ok (XPopThrew l (m, a), r1) ->
  ~ In m (map fst l) /\ NoDup (map fst l) /\ exists im sm gm, registered r m im sm gm /\ forall n id s g, registered r n id s g ->
    if id <=? im then exists g', taken ne f (clk n) g (m_find name_eqb n (l ++ [(m, a)])) g' /\ registered r1 n id s g'
    else registered r1 n id s g /\ ~ In n (map fst l).
Proof. exact x_pop. Qed.
Print Assumptions C91_pop_all.
Example C91_pop_all_witness : exists r0 l m a r1, x_reachable ne_rev rx_o 12 r0 /\ x_do ne_rev (XPopAll 1 true (fun _ => 108)) r0 = Ok (XPopThrew l (m, a), r1) /\
  map fst l = [na] /\ m = nb.
Proof.
  set (r0 := match x_run ne_rev (rg_new rx_o) (firstn 12 xx_ops) with Ok (_, r) => r | _ => rg_new rx_o end).
  exists r0. eexists _, _, _, _. split.
  - exists (firstn 12 xx_ops). eexists. split; [reflexivity|]. split; [repeat constructor|vm_compute; reflexivity].
  - split; [vm_compute; reflexivity|]. split; [vm_compute; reflexivity|vm_compute; reflexivity].
Qed.

(** del, if no growth of the array has failed: it is defined, afterwards the name is free and the others are as they were. *)
Theorem C91_del : forall ne o ops outs r n, fits o (length ops) -> Forall not_between ops -> Forall grown ops -> x_run ne (rg_new o) ops = Ok (outs, r) ->
  exists r1, rg_del n r = Ok (false, r1) /\ (n <> [] -> (forall i s g, ~ registered r1 n i s g) /\ (forall i, rg_get_name i r1 <> n)) /\
    (forall m i s g, m <> n -> (registered r1 m i s g <-> registered r m i s g)).
Proof. exact x_del_defined. Qed.
Print Assumptions C91_del.
Example C91_del_witness : Forall grown xx_ops /\ exists r1, rg_del nb xx_r = Ok (false, r1) /\ rg_get_name 18 r1 = [] /\ rg_get_name 18 xx_r = nb.
Proof. split; [repeat constructor|]. eexists. split; [vm_compute; reflexivity|]. split; [vm_compute; reflexivity|vm_compute; reflexivity]. Qed.

(** del that throws: the aggregator is gone all the same, the others are as they were; the id stays bound to the name. *)
Theorem C91_del_threw : forall ne o N r n r1, fits o N -> x_reachable ne o N r -> n <> [] -> rg_del_x n r = Ok (None, r1) ->
  (forall i s g, ~ registered r1 n i s g) /\ (forall m i s g, m <> n -> (registered r1 m i s g <-> registered r m i s g)) /\
  exists id, rg_get_name id r1 = n.
Proof. exact x_del_threw. Qed.
Print Assumptions C91_del_threw.
Example C91_del_threw_witness : exists r1, rg_del_x nb xx_r = Ok (None, r1) /\ rg_get 18 r1 = Ok None /\ rg_get_name 18 r1 = nb.
Proof. eexists. split; [vm_compute; reflexivity|]. split; [vm_compute; reflexivity|vm_compute; reflexivity]. Qed.

(** Not true: that a failing call leaves the registry usable.  The array of aggregators could not grow: the name is entered, del(name)
    then writes past the end of the array. *)
Theorem C91_del_refuted : exists r1, x_run ne_rev (rg_new rx_o) [XCreate XResize rx_e na 108] = Ok ([XThrew], r1) /\ rg_del na r1 = Ub.
Proof. eexists. split; [vm_compute; reflexivity|vm_compute; reflexivity]. Qed.
Print Assumptions C91_del_refuted.

(** Not true: that a name whose creation failed between the two tables can be used.  The second attempt returns an id that has no name, its
    records are reported under the empty name, del(name) removes the aggregator but the name stays bound to the id. *)
Theorem C91_index_refuted : exists l r1, x_run ne_rev (rg_new rx_o)
    [XCreate XIndex rx_e na 108; XOp (RgCreate rx_e na 108); XOp (RgGetName 8); XOp (RgCall 8 (GoAdd (SmScalar 103 7 1) 0 0));
     XOp (RgPopAll true (fun _ => 108)); XOp (RgDel na); XOp (RgCreate rx_e nb 108); XOp (RgCreate rx_e na 108)] = Ok (l, r1) /\
  nth 0 l (XRet RUnit) = XThrew /\ nth 1 l (XRet RUnit) = XRet (RId 8) /\ nth 2 l (XRet RUnit) = XRet (RName []) /\
  (exists a, nth 4 l (XRet RUnit) = XRet (RNamed [([], a)]) /\ ad_count a = 1 /\ ad_max a = 7) /\
  nth 6 l (XRet RUnit) = XRet (RId 13) /\ nth 7 l (XRet RUnit) = XRet (RId 8) /\ rg_get_name 8 r1 = [].
Proof.
  eexists _, _. split; [vm_compute; reflexivity|]. split; [reflexivity|]. split; [reflexivity|]. split; [reflexivity|].
  split; [eexists; split; [reflexivity|]; split; reflexivity|]. split; [reflexivity|]. split; reflexivity.
Qed.
Print Assumptions C91_index_refuted.

(** Not true: that a second attempt makes up for the first.  The initializer threw: the aggregator exists, so the next creation returns its
    id and never calls the initializer; the data it would have given is never recorded. *)
Definition xi_e : cenv := mk_cenv 0 0 0 0 (Some (mk_rdata (mk_rinfo 103 1 0 7 7 7) [7])) 0.
Definition xi_o : rgopts := mk_rgopts gx_o 3 5 true.
Theorem C91_init_refuted :
  (exists r1 r2 r3, rg_create_x ne_rev (Some XInit) xi_e na 108 (rg_new xi_o) = Ok (None, r1) /\ rg_create ne_rev xi_e na 108 r1 = Ok (8, r2) /\
     rg_pop_all ne_rev true (fun _ => 108) r2 = Ok ([], r3)) /\
  (exists r1 a r2, rg_create ne_rev xi_e na 108 (rg_new xi_o) = Ok (8, r1) /\ rg_pop_all ne_rev true (fun _ => 108) r1 = Ok ([(na, a)], r2) /\ ad_count a = 1).
Proof.
  split.
  - eexists _, _, _. split; [vm_compute; reflexivity|]. split; [vm_compute; reflexivity|vm_compute; reflexivity].
  - eexists _, _, _. split; [vm_compute; reflexivity|]. split; [vm_compute; reflexivity|vm_compute; reflexivity].
Qed.
Print Assumptions C91_init_refuted.

(** pushout() and force_pushout() when the copy of the name of record number [i] fails: nothing is handed over, exactly the records number 0 to [i] are
    gone, and the names whose ids come later have not been touched.  If there is no record number [i], it is a pushout() as always. *)
Lemma pop_loop_x_length ne : forall f clk is i r l p r1, rg_pop_loop_x ne i f clk is r = Ok (l, Some p, r1) -> length l = i.
Proof.
  intros f clk is. induction is as [|p is IH]; intros i r l q r1 E; cbn [rg_pop_loop_x] in E; [discriminate|].
  destruct (d_pos2id p (rg_dict r)) as [id| |]; cbn [bind] in E; try discriminate. destruct (rg_get id r) as [[[pos [s g]]|]| |]; cbn [bind] in E; try discriminate; [|eauto].
  destruct (g_call ne _ g) as [[o1 g1]| |]; cbn [bind] in E; try discriminate. destruct (g_call ne _ g1) as [[o2 g2]| |]; cbn [bind] in E; try discriminate.
  destruct (out_ptr o2) as [a|]; [|eauto]. destruct i as [|i]; [injection E as <- _ _; reflexivity|].
  destruct (rg_pop_loop_x ne i f clk is _) as [[[l2 x] r2]| |] eqn:L; cbn [bind] in E; try discriminate. injection E as <- -> <-. cbn [length]. f_equal. eauto.
Qed.
Theorem C91_pushout : forall ne o N i f clk w res w1, fits o N -> x_reachable ne o N (w_reg w) -> w_pushout_x ne i f clk w = Ok (res, w1) ->
  match res with
  | Some l => w_pushout ne f clk w = Ok (l, w1)
  | None => w_handler w1 = w_handler w /\ exists gone last, length gone = S i /\ NoDup (map fst gone) /\ forall n id s g, registered (w_reg w) n id s g ->
      if id <=? last then exists g', taken ne f (clk n) g (m_find name_eqb n gone) g' /\ registered (w_reg w1) n id s g'
      else registered (w_reg w1) n id s g /\ ~ In n (map fst gone)
  end.
Proof.
  intros ne o N i f clk w res w1 F R E. unfold w_pushout_x in E. destruct (rg_pop_all_x ne i f clk (w_reg w)) as [[[l x] r1]| |] eqn:P; cbn [bind] in E; try discriminate.
  destruct x as [[m a]|].
  - injection E as <- <-. split; [reflexivity|].
    assert (D : x_do ne (XPopAll i f clk) (w_reg w) = Ok (XPopThrew l (m, a), r1)) by (cbn [x_do]; rewrite P; reflexivity).
    destruct (C91_pop_all ne o N i f clk _ l m a r1 F R D) as (NI & ND & im & sm & gm & RM & H). exists (l ++ [(m, a)]), im. cbn [w_reg].
    split; [rewrite app_length, (pop_loop_x_length ne _ _ _ _ _ _ _ _ P), Nat.add_1_r; reflexivity|].
    split; [rewrite map_app; apply Permutation_NoDup with (l := m :: map fst l); [apply Permutation_cons_append|constructor; auto]|].
    intros n id s g Rn. specialize (H n id s g Rn). destruct (id <=? im) eqn:Q; [exact H|]. destruct H as [H1 H2]. split; [exact H1|].
    rewrite map_app. intros J. apply in_app_or in J as [J|[J|[]]]; [auto|]. cbn [fst] in J. subst n. apply Z.leb_gt in Q.
    destruct Rn as (Hm & N1 & _), RM as (_ & N2 & _). assert (id = im) by (eapply x_names; eauto; congruence). lia.
  - assert (D : x_do ne (XPopAll i f clk) (w_reg w) = Ok (XRet (RNamed l), r1)) by (cbn [x_do]; rewrite P; reflexivity).
    apply C91_returned in D. cbn [plain rg_do] in D. destruct (rg_pop_all ne f clk (w_reg w)) as [[l2 r2]| |] eqn:Q; cbn [bind] in D; try discriminate. injection D as -> ->.
    unfold w_pushout. destruct (w_handler w); [injection E as <- <-; rewrite Q; reflexivity|]. destruct l; [injection E as <- <-; rewrite Q; reflexivity|discriminate].
Qed.
Print Assumptions C91_pushout.
Example C91_pushout_witness : exists r0 w1 l w2, x_reachable ne_rev rx_o 12 r0 /\
  w_pushout_x ne_rev 1 true (fun _ => 108) (mk_wrt r0 true) = Ok (None, w1) /\
  w_pushout_x ne_rev 5 true (fun _ => 108) (mk_wrt r0 true) = Ok (Some l, w2) /\ (length l = 3)%nat.
Proof.
  set (r0 := match x_run ne_rev (rg_new rx_o) (firstn 12 xx_ops) with Ok (_, r) => r | _ => rg_new rx_o end).
  exists r0. eexists _, _, _. split.
  - exists (firstn 12 xx_ops). eexists. split; [reflexivity|]. split; [repeat constructor|vm_compute; reflexivity].
  - split; [vm_compute; reflexivity|]. split; [vm_compute; reflexivity|vm_compute; reflexivity].
Qed.

(** Not true: that nothing recorded is lost.  pushout() popped both names, the copy of the second name failed: the handler gets nothing, and
    the next pushout() has nothing to give. *)
Theorem C91_pushout_refuted : exists w w1 w2,
  (exists ops outs, rg_run ne_rev (rg_new rx_o) ops = Ok (outs, w_reg w)) /\ w_handler w = true /\
  (exists l w3, w_pushout ne_rev true (fun _ => 108) w = Ok (l, w3) /\ map fst l = [na; nb]) /\
  w_pushout_x ne_rev 1 true (fun _ => 108) w = Ok (None, w1) /\ w_pushout ne_rev true (fun _ => 108) w1 = Ok ([], w2).
Proof.
  set (ops := [RgCreate rx_e na 108; RgCall 8 (GoAdd (SmScalar 103 7 1) 0 0); RgCreate rx_e nb 108; RgCall 13 (GoAdd (SmScalar 104 9 1) 0 0)]).
  set (r := match rg_run ne_rev (rg_new rx_o) ops with Ok (_, r) => r | _ => rg_new rx_o end).
  exists (mk_wrt r true). eexists _, _. split; [exists ops; eexists; vm_compute; reflexivity|]. split; [reflexivity|].
  split; [eexists _, _; split; [vm_compute; reflexivity|reflexivity]|]. split; [vm_compute; reflexivity|vm_compute; reflexivity].
Qed.
Print Assumptions C91_pushout_refuted.
