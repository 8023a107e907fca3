(** The history theorems about aggregators. *)
From Coq Require Import ZArith List Bool Permutation Lia Arith Sorted.
From Verif Require Import Base SortFacts ModelTypes ModelAvg ModelReducer SpecReducer ReducerProofs PubProofs
  ModelSeparator SpecSeparator SepProofs SepSpecProofs SepRun SepSafe ModelAggregator SpecAggregator AggProofs AggRun.
Import ListNotations.
Local Open Scope Z_scope.

(** * Grouping *)
Lemma GInv_one l0 step res op sp so sp1 closed acc hs ps : 0 < step -> regular op -> coherent step res op ->
  GInv l0 step sp closed acc hs ps -> spec_call step res op sp = (so, sp1) ->
  exists closed', GInv l0 step sp1 closed' (acc ++ accepted step res [op] [po_bool so]) (hs ++ po_handler so)
    (ps ++ popped [op] [po_ptr so]).
Proof.
  intros Hs HR HC G E.
  pose proof (GInv_run l0 step res [op] Hs (Forall_cons _ HR (Forall_nil _)) (Forall_cons _ HC (Forall_nil _)) sp closed acc hs ps G) as H.
  cbn [spec_run] in H. rewrite E in H. destruct H as (cl & H & _). exists cl. cbn [map flat_map] in H. rewrite app_nil_r in H. exact H.
Qed.

Lemma agroup_run l0 step res ops : 0 < step -> Forall gregular ops -> Forall (gcoherent step res) ops ->
  forall a closed acc hs ps, sp_queue (as_sp a) = [] -> GInv l0 step (merged a) closed acc hs ps ->
  let '(os, a1) := aspec_run step res ops a in
  sp_queue (as_sp a1) = [] /\
  exists closed', GInv l0 step (merged a1) closed' (acc ++ recorded step res (as_en a) ops (map po_bool os))
    (hs ++ flat_map po_handler os) (ps ++ gpopped ops (map po_ptr os)).
Proof.
  intros Hs. induction ops as [|op ops IH]; intros HR HC a closed acc hs ps HQ G.
  - simpl. rewrite !app_nil_r. eauto.
  - assert (HR1 := Forall_inv HR). assert (HC1 := Forall_inv HC).
    specialize (IH (Forall_inv_tail HR) (Forall_inv_tail HC)).
    simpl aspec_run. pose proof (merged_call step res op a Hs HR1 HC1 HQ) as M.
    destruct (aspec_call step res op a) as [so a1]. destruct M as (M1 & M2 & M3).
    assert (STEP : exists cl, GInv l0 step (merged a1) cl
      (acc ++ match op, po_bool so with
              | GoAdd x c1 _, Some true | GoPush x _ c1 _, Some true =>
                  if as_en a then [(acc_time step res c1 (sm_ts x), sm_op x)] else []
              | _, _ => [] end)
      (hs ++ po_handler so)
      (ps ++ match op, po_ptr so with GoPop, Some q | GoForcePop, Some q => [q] | _, _ => [] end)).
    { destruct op; simpl in HR1, HC1; try contradiction.
      - destruct (as_en a).
        + destruct (GInv_one l0 step res (SoAdd x c1 c2) (merged a) so (merged a1) closed acc hs ps Hs I HC1 G M3) as (cl & K).
          exists cl. simpl in K. rewrite !app_nil_r in K. rewrite app_nil_r. exact K.
        + destruct M3 as [-> ->]. exists closed. simpl. rewrite !app_nil_r. exact G.
      - destruct (as_en a).
        + destruct (GInv_one l0 step res (if h then SoPush x c1 c2 else SoAdd x c1 c2) (merged a) so (merged a1) closed acc hs ps Hs) as (cl & K); auto.
          { destruct h; exact I. }
          { destruct h; exact HC1. }
          exists cl. destruct h; simpl in K; rewrite !app_nil_r in K; rewrite app_nil_r; exact K.
        + destruct M3 as [-> ->]. exists closed. simpl. rewrite !app_nil_r. exact G.
      - destruct (GInv_one l0 step res (SoSeparate ts h force c) (merged a) so (merged a1) closed acc hs ps Hs I I G M3) as (cl & K).
        exists cl. simpl in K. rewrite !app_nil_r in *. exact K.
      - destruct (GInv_one l0 step res SoPop (merged a) so (merged a1) closed acc hs ps Hs I I G M3) as (cl & K).
        exists cl. simpl in K. rewrite !app_nil_r in *. exact K.
      - destruct (GInv_one l0 step res SoPeek (merged a) so (merged a1) closed acc hs ps Hs I I G M3) as (cl & K).
        exists cl. simpl in K. rewrite !app_nil_r in *. exact K.
      - destruct M3 as [-> ->]. exists closed. simpl. rewrite !app_nil_r. exact G. }
    destruct STEP as (cl & G1). specialize (IH a1 cl _ _ _ M1 G1).
    destruct (aspec_run step res ops a1) as [os a2]. destruct IH as (I1 & cl2 & G2). split; auto. exists cl2.
    cbn [map recorded flat_map gpopped]. rewrite <- M2. rewrite <- !app_assoc in G2. exact G2.
Qed.

(** * Conservation *)
Definition aheld (a : aspec) : list rop := all_ops (as_q a) ++ all_ops (sp_queue (as_sp a)) ++ sp_open (as_sp a).

Lemma cons_one step res op sp so sp1 : not_clear op -> spec_call step res op sp = (so, sp1) ->
  Permutation (all_ops (po_handler so) ++ all_ops (popped [op] [po_ptr so]) ++ all_ops (sp_queue sp1) ++ sp_open sp1)
    ((all_ops (sp_queue sp) ++ sp_open sp) ++ map snd (accepted step res [op] [po_bool so])).
Proof.
  intros HN E. pose proof (cons_run step res [op] (Forall_cons _ HN (Forall_nil _)) sp) as H.
  cbn [spec_run] in H. rewrite E in H. cbn [map flat_map] in H. rewrite app_nil_r in H. exact H.
Qed.

Lemma acons_call step res op a so a1 : gnot_clear op -> aspec_call step res op a = (so, a1) ->
  Permutation (all_ops (po_handler so) ++
      all_ops (match op, po_ptr so with GoPop, Some q | GoForcePop, Some q => [q] | _, _ => [] end) ++ aheld a1)
    (aheld a ++ map snd (match op, po_bool so with
              | GoAdd x c1 _, Some true | GoPush x _ c1 _, Some true =>
                  if as_en a then [(acc_time step res c1 (sm_ts x), sm_op x)] else []
              | _, _ => [] end)).
Proof.
  intros HN E.
  assert (SWAP : forall (h q s o q0 s0 r : list rop), Permutation (h ++ s ++ o) ((q0 ++ s0) ++ r) ->
     Permutation (h ++ q ++ s ++ o) ((q ++ q0 ++ s0) ++ r)).
  { intros. rewrite app_assoc, (Permutation_app_comm h q), <- app_assoc. rewrite H. rewrite <- !app_assoc. reflexivity. }
  assert (DR : forall sp, aheld (as_drain sp a) = all_ops (as_q a) ++ all_ops (sp_queue sp) ++ sp_open sp).
  { intros sp. unfold aheld, as_drain. simpl. now rewrite all_ops_app, <- app_assoc. }
  assert (ADD : forall x c1 c2, aspec_add step res x c1 c2 a = (so, a1) ->
    Permutation (all_ops (po_handler so) ++ aheld a1)
      (aheld a ++ map snd (match po_bool so with Some true => if as_en a then [(acc_time step res c1 (sm_ts x), sm_op x)] else [] | _ => [] end))).
  { intros x c1 c2 EA. unfold aspec_add in EA. destruct (as_en a) eqn:Ee; simpl negb in EA; cbv iota in EA.
    2: { injection EA as <- <-. simpl. now rewrite app_nil_r. }
    destruct (spec_call step res (SoAdd x c1 c2) (as_sp a)) as [so0 sp1] eqn:Ec. injection EA as -> <-.
    apply cons_one in Ec; [|exact I]. simpl in Ec. 
    assert (H : Permutation (all_ops (po_handler so) ++ all_ops (as_q a) ++ all_ops (sp_queue sp1) ++ sp_open sp1)
      (aheld a ++ map snd (match po_bool so with Some true => [(acc_time step res c1 (sm_ts x), sm_op x)] | _ => [] end))).
    { apply SWAP. rewrite Ec. rewrite app_nil_r. reflexivity. }
    destruct (po_bool so) as [[|]|]; [rewrite DR|unfold aheld, as_set; simpl|unfold aheld, as_set; simpl]; exact H. }
  destruct op; simpl in HN; try contradiction; simpl aspec_call in E; simpl.
  - exact (ADD x c1 c2 E).
  - destruct h; simpl negb in E; cbv iota in E; [|exact (ADD x c1 c2 E)].
    destruct (as_en a) eqn:Ee; simpl negb in E; cbv iota in E.
    2: { injection E as <- <-. simpl. now rewrite app_nil_r. }
    change (spec_put step (adv_time step res c1 c2 (sm_ts x)) (acc_time step res c1 (sm_ts x)) true (sm_op x) (as_sp a))
      with (spec_call step res (SoPush x c1 c2) (as_sp a)) in E.
    destruct (spec_call step res (SoPush x c1 c2) (as_sp a)) as [so0 sp1] eqn:Ec. injection E as -> <-.
    apply cons_one in Ec; [|exact I]. simpl in Ec. unfold aheld at 1. unfold as_set. simpl.
    apply SWAP. rewrite Ec. rewrite app_nil_r. reflexivity.
  - change (let '(out, sp1) := spec_deliver h (spec_advance step (acc_time step res c ts) (as_sp a)) in
         (mk_spout (Some (force || (sp_cur (as_sp a) + step <=? acc_time step res c ts))) out None, sp1))
      with (spec_call step res (SoSeparate ts h force c) (as_sp a)) in E.
    destruct (spec_call step res (SoSeparate ts h force c) (as_sp a)) as [so0 sp1] eqn:Ec. injection E as -> <-.
    apply cons_one in Ec; [|exact I]. simpl in Ec. rewrite DR. apply SWAP. exact Ec.
  - destruct (as_q a) as [|q0 q] eqn:Eq; injection E as <- <-; simpl; rewrite ?app_nil_r; unfold aheld; simpl; rewrite Eq; auto.
    simpl. rewrite <- !app_assoc. reflexivity.
  - change (match sp_queue (as_sp a) with
       | [] => (mk_spout None [] (match sp_open (as_sp a) with [] => None | g => Some (sp_cur (as_sp a), g) end),
               mk_spec (sp_cur (as_sp a)) [] [])
       | g :: q => (mk_spout None [] (Some g), mk_spec (sp_cur (as_sp a)) (sp_open (as_sp a)) q) end)
      with (spec_call step res SoForcePop (as_sp a)) in E.
    destruct (spec_call step res SoForcePop (as_sp a)) as [so0 sp1] eqn:Ec. injection E as -> <-.
    apply cons_one in Ec; [|exact I]. simpl in Ec. unfold aheld, as_set. simpl.
    set (P := all_ops (match po_ptr so with Some q => [q] | None => [] end)).
    replace (all_ops (match po_ptr so with Some a0 => [a0] | None => [] end ++ [])) with P in Ec by (unfold P; now rewrite app_nil_r).
    rewrite app_assoc. apply SWAP. rewrite <- app_assoc. exact Ec.
  - injection E as <- <-. simpl. rewrite app_nil_r. reflexivity.
  - injection E as <- <-. simpl. rewrite app_nil_r. reflexivity.
Qed.

Lemma as_en_call step res op a so a1 : aspec_call step res op a = (so, a1) -> as_en a1 = en_after op (as_en a).
Proof.
  intros E.
  assert (ADD : forall x c1 c2, aspec_add step res x c1 c2 a = (so, a1) -> as_en a1 = as_en a).
  { intros x c1 c2 EA. unfold aspec_add in EA. destruct (as_en a) eqn:Ee; simpl negb in EA; cbv iota in EA.
    2: { now injection EA as _ <-. }
    destruct (spec_call _ _ _ _) as [so0 sp1]. injection EA as -> <-. now destruct (po_bool so) as [[|]|]. }
  destruct op; simpl aspec_call in E; simpl.
  - eauto.
  - destruct h; simpl negb in E; cbv iota in E; [|eauto]. destruct (as_en a) eqn:Ee; simpl negb in E; cbv iota in E.
    2: { now injection E as _ <-. }
    destruct (spec_put _ _ _ _ _ _) as [so0 sp1]. now injection E as -> <-.
  - destruct (spec_deliver _ _). now injection E as _ <-.
  - destruct (as_q a); now injection E as _ <-.
  - destruct (sp_queue _); now injection E as _ <-.
  - now injection E as _ <-.
  - now injection E as _ <-.
  - now injection E as _ <-.
Qed.

Lemma acons_run step res ops : Forall gnot_clear ops -> forall a,
  let '(os, a1) := aspec_run step res ops a in
  Permutation (all_ops (flat_map po_handler os) ++ all_ops (gpopped ops (map po_ptr os)) ++ aheld a1)
    (aheld a ++ map snd (recorded step res (as_en a) ops (map po_bool os))).
Proof.
  induction ops as [|op ops IH]; intros HN a.
  - simpl. now rewrite app_nil_r.
  - assert (H1 := Forall_inv HN). specialize (IH (Forall_inv_tail HN)). simpl aspec_run.
    destruct (aspec_call step res op a) as [so a1] eqn:Ec.
    pose proof (acons_call step res op a so a1 H1 Ec) as STEP. apply as_en_call in Ec. specialize (IH a1).
    destruct (aspec_run step res ops a1) as [os a2].
    cbn [map recorded flat_map gpopped]. rewrite <- Ec. rewrite map_app, !all_ops_app.
    set (P1 := all_ops (match op, po_ptr so with GoPop, Some q | GoForcePop, Some q => [q] | _, _ => [] end)) in *.
    rewrite (app_assoc (aheld a)), <- STEP.
    transitivity ((all_ops (po_handler so) ++ P1) ++
      (all_ops (flat_map po_handler os) ++ all_ops (gpopped ops (map po_ptr os)) ++ aheld a2)).
    + apply perm_mid4.
    + rewrite IH. rewrite <- !app_assoc. reflexivity.
Qed.

Section NE.
  Variable ne : nat -> list Z -> list Z.
  Hypothesis Hne : nth_element_ok ne.
  Notation rel := (rel ne).
  Notation Sim := (Sim ne).
  Notation ASim := (ASim ne).
  Notation wrel := (wrel ne).
  Notation drel := (drel ne).

  Lemma wrel_ts o l m : Forall2 (wrel o) l m -> map ad_ts m = map fst l.
  Proof.
    induction 1 as [|q a l m H F IH]; simpl; auto. f_equal; auto.
    destruct H as (b & (ops & a0 & _ & _ & _ & ->) & E & _). unfold ad_ts. rewrite E. reflexivity.
  Qed.

  Lemma ggroup o ops g0 outs g : 0 < so_step (ao_sep o) -> g_idle ne o g0 ->
    Forall gop_typed ops -> Forall gregular ops -> Forall (gcoherent (so_step (ao_sep o)) (so_res (ao_sep o))) ops ->
    g_run ne g0 ops = Ok (outs, g) ->
    let step := so_step (ao_sep o) in
    let l0 := agg_label g0 in
    let acc := recorded step (so_res (ao_sep o)) (g_enabled g0) ops (map out_bool outs) in
    let hs := flat_map out_handler outs in
    let ps := gpopped ops (map out_ptr outs) in
    s_list (g_sep g) = [] /\
    reach ne (so_red (ao_sep o)) (ops_in l0 step (agg_label g) acc) (s_red (g_sep g)) /\
    StronglySorted Z.lt (map ad_ts hs) /\ StronglySorted Z.lt (map ad_ts (ps ++ g_list g)) /\
    exists closed recs,
      StronglySorted Z.lt (map fst closed) /\
      (forall w gr, In (w, gr) closed <-> gr = ops_in l0 step w acc /\ gr <> [] /\ w < agg_label g) /\
      Forall2 (fun q d => reported_as ne (so_red (ao_sep o)) (fst q) (snd q) d) closed recs /\
      Permutation recs (hs ++ ps ++ g_list g).
  Proof.
    intros Hs E0 HT HR HC E. cbv zeta.
    pose proof (idle_asim ne Hne o g0 Hs E0) as SI. set (l0 := agg_label g0) in *.
    set (step := so_step (ao_sep o)) in *. set (res := so_res (ao_sep o)) in *. set (ro := so_red (ao_sep o)) in *.
    pose proof (grun_sim_w ne Hne ro (ao_out o) step res ops Hs HT g0 _ outs g SI E) as R.
    pose proof (agroup_run l0 step res ops Hs HR HC (mk_as (mk_spec l0 [] []) [] (g_enabled g0)) [] [] [] []
      eq_refl (GInv_init l0 step [] eq_refl)) as G.
    destruct (aspec_run step res ops _) as [os a].
    destruct R as (R1 & R2 & R3 & R4). destruct G as (GQ & closed & G). simpl in G. rewrite R2 in G.
    destruct R1 as ((T1 & T2 & T3 & T4 & T5 & T6) & Q & _).
    assert (EL : agg_label g = sp_cur (as_sp a)) by (unfold agg_label, sep_label; lia). rewrite EL.
    destruct G as [Gc Ga Go Gs Gl Gi Gp Gh Gq]. simpl in *.
    split; [rewrite GQ in T6; now inversion T6|].
    split; [rewrite <- Go; exact T5|].
    split; [rewrite (wrel_ts _ _ _ R3); exact Gh|].
    assert (WP := Forall2_impl _ _ _ _ (fun q d H => drel_w ne ro (ao_out o) q d H) R4).
    assert (WQ := Forall2_impl _ _ _ _ (fun q d H => drel_w ne ro (ao_out o) q d H) Q).
    split.
    { assert (F := Forall2_app WP WQ). rewrite (wrel_ts _ _ _ F). exact Gq. }
    assert (F := Forall2_app3 _ _ _ _ _ _ _ R3 WP WQ).
    destruct (Forall2_perm _ _ _ Gp _ F) as (recs & P & F').
    exists closed, recs. auto.
  Qed.

  Lemma ggroup_public o ops g0 outs g : 0 < so_step (ao_sep o) -> g_idle ne o g0 ->
    Forall gop_typed ops -> Forall gregular ops -> Forall (gcoherent (so_step (ao_sep o)) (so_res (ao_sep o))) ops ->
    g_run ne g0 ops = Ok (outs, g) ->
    let step := so_step (ao_sep o) in
    let l0 := agg_label g0 in
    let acc := recorded step (so_res (ao_sep o)) (g_enabled g0) ops (map out_bool outs) in
    let hs := flat_map out_handler outs in
    let ps := gpopped ops (map out_ptr outs) in
    s_list (g_sep g) = [] /\
    StronglySorted Z.lt (map ad_ts hs) /\ StronglySorted Z.lt (map ad_ts (ps ++ g_list g)) /\
    exists closed recs,
      StronglySorted Z.lt (map fst closed) /\
      (forall w gr, In (w, gr) closed <-> gr = ops_in l0 step w acc /\ gr <> [] /\ w < agg_label g) /\
      Forall2 (fun q d => reported_as ne (so_red (ao_sep o)) (fst q) (snd q) d) closed recs /\
      Permutation recs (hs ++ ps ++ g_list g).
  Proof.
    intros Hs E0 HT HR HC E. destruct (ggroup o ops g0 outs g Hs E0 HT HR HC E) as (A & _ & B). exact (conj A B).
  Qed.

  (** Counts *)
  Lemma wrel_count o q d : wrel o q d -> ad_count d = u64 (declared (snd q)).
  Proof. intros (a & H & E & _). rewrite <- (rel_count ne Hne o q a H). unfold ad_count. now rewrite E. Qed.
  Lemma wsum_count o l m : Forall2 (wrel o) l m -> u64 (sum_count m) = u64 (declared (all_ops l)).
  Proof.
    induction 1 as [|q a l m H F IH]; auto. unfold sum_count, all_ops. simpl.
    rewrite declared_app. rewrite (wrel_count _ _ _ H). fold (sum_count m).
    unfold u64 in *. rewrite Z.add_mod_idemp_l by (unfold two64; lia).
    rewrite <- Z.add_mod_idemp_r, IH, Z.add_mod_idemp_r by (unfold two64; lia). reflexivity.
  Qed.
  Lemma wsub o l m : Forall2 (wrel o) l m -> submultiset (flat_map ad_data m) (values (all_ops l)).
  Proof.
    induction 1 as [|q a l m H F IH]; [exists []; constructor|].
    unfold all_ops. simpl. rewrite values_app. apply submultiset_app; auto.
    destruct H as (b & H & _ & S). eapply submultiset_trans; [exact S|]. apply (rel_sub ne Hne o _ _ H).
  Qed.

  Lemma gcurrent_count o out step res g a p : ASim o out step res g a -> g_current ne g = Ok p ->
    match p with Some d => ad_count d | None => 0 end = u64 (declared (sp_open (as_sp a))).
  Proof.
    intros ((T1 & T2 & T3 & T4 & T5 & T6) & _) EP. unfold g_current, s_get_current in EP.
    destruct (r_get_reduced ne (s_red (g_sep g))) as [b| |] eqn:Eg; cbn [bind] in EP; try discriminate.
    rewrite <- (peek_count ne Hne o _ _ _ T5 Eg).
    destruct b as [x|]; cbn [bind] in EP; [|now injection EP as <-].
    destruct (chk _) as [t| |]; cbn [bind] in EP; try discriminate.
    destruct (g_finish ne (g_out g) (ad_set_ts t x)) as [d| |] eqn:EF; cbn [bind] in EP; try discriminate.
    injection EP as <-. apply (finish_fun ne Hne) in EF. destruct EF as (EF & _). unfold ad_count. rewrite EF. reflexivity.
  Qed.

  Lemma gcons o ops g0 outs g p : 0 < so_step (ao_sep o) -> g_idle ne o g0 ->
    Forall gop_typed ops -> Forall gnot_clear ops ->
    g_run ne g0 ops = Ok (outs, g) -> g_current ne g = Ok p ->
    let acc := map snd (recorded (so_step (ao_sep o)) (so_res (ao_sep o)) (g_enabled g0) ops (map out_bool outs)) in
    let out := flat_map out_handler outs ++ gpopped ops (map out_ptr outs) ++ g_list g ++ s_list (g_sep g) in
    u64 (sum_count out + match p with Some d => ad_count d | None => 0 end) = u64 (declared acc) /\
    submultiset (flat_map ad_data out) (values acc) /\
    exists groups opn,
      Forall2 (fun q d => reported_as ne (so_red (ao_sep o)) (fst q) (snd q) d) groups out /\
      Permutation (flat_map snd groups ++ opn) acc.
  Proof.
    intros Hs E0 HT HN E EP. cbv zeta.
    pose proof (idle_asim ne Hne o g0 Hs E0) as SI.
    set (step := so_step (ao_sep o)) in *. set (res := so_res (ao_sep o)) in *. set (ro := so_red (ao_sep o)) in *.
    pose proof (grun_sim_w ne Hne ro (ao_out o) step res ops Hs HT g0 _ outs g SI E) as R.
    pose proof (acons_run step res ops HN (mk_as (mk_spec (agg_label g0) [] []) [] (g_enabled g0))) as G.
    destruct (aspec_run step res ops _) as [os a].
    destruct R as (R1 & R2 & R3 & R4). simpl in G. rewrite R2 in G.
    assert (R1' := R1). destruct R1' as ((T1 & T2 & T3 & T4 & T5 & T6) & Q & _).
    assert (WP := Forall2_impl _ _ _ _ (fun q d H => drel_w ne ro (ao_out o) q d H) R4).
    assert (WQ := Forall2_impl _ _ _ _ (fun q d H => drel_w ne ro (ao_out o) q d H) Q).
    assert (WS := Forall2_impl _ _ _ _ (fun q d H => rel_w ne ro q d H) T6).
    assert (F := Forall2_app R3 (Forall2_app WP (Forall2_app WQ WS))).
    set (acc := map snd _) in *. set (out := flat_map out_handler outs ++ _) in *.
    set (grp := flat_map po_handler os ++ gpopped ops (map po_ptr os) ++ as_q a ++ sp_queue (as_sp a)) in *.
    assert (P : Permutation (all_ops grp ++ sp_open (as_sp a)) acc).
    { rewrite <- G. unfold grp, aheld. rewrite !all_ops_app, <- !app_assoc. reflexivity. }
    split; [|split].
    - rewrite (gcurrent_count _ _ _ _ _ _ _ R1 EP), <- (declared_perm _ _ P), declared_app.
      pose proof (wsum_count _ _ _ F) as U.
      unfold u64 in *. rewrite Z.add_mod_idemp_r by (unfold two64; lia).
      rewrite <- Z.add_mod_idemp_l, U, Z.add_mod_idemp_l by (unfold two64; lia). reflexivity.
    - eapply submultiset_trans; [exact (wsub _ _ _ F)|].
      exists (values (sp_open (as_sp a))). rewrite <- values_app. now apply values_perm; symmetry.
    - exists grp, (sp_open (as_sp a)). auto.
  Qed.

  (** * Every delivery is finished *)
  Lemma gdelivered o c rnd ts g0 ops outs g : 0 < so_step (ao_sep o) -> agg_new o c rnd ts = Ok g0 ->
    Forall gop_typed ops -> g_run ne g0 ops = Ok (outs, g) ->
    Forall2 (fun op r =>
      (match op with GoSeparate _ _ _ _ => True | _ =>
         Forall (fun d => exists w gr, gr <> [] /\ delivery_of ne (so_red (ao_sep o)) (ao_out o) w gr d) (out_handler r) end) /\
      match op, out_ptr r with
      | _, None => True
      | GoCurrent, Some d => exists w gr a b, gr <> [] /\ record_of ne (so_red (ao_sep o)) w gr b /\ same_summary a b /\ ad_ts a = w /\
                               finished (ao_out o) a d
      | _, Some d => exists w gr, gr <> [] /\ delivery_of ne (so_red (ao_sep o)) (ao_out o) w gr d
      end) ops outs /\
    Forall (fun d => exists w gr, gr <> [] /\ delivery_of ne (so_red (ao_sep o)) (ao_out o) w gr d) (g_list g).
  Proof.
    intros Hs E0 HT E. pose proof (new_asim ne o c rnd ts g0 Hs E0) as SI.
    set (step := so_step (ao_sep o)) in *. set (res := so_res (ao_sep o)) in *. set (ro := so_red (ao_sep o)) in *.
    pose proof (grun_sim ne Hne ro (ao_out o) step res ops Hs HT g0 _ outs g SI E) as R.
    assert (NE1 : forall op sp so sp1, spec_call step res op sp = (so, sp1) ->
      Forall (fun q => snd q <> []) (sp_queue sp) ->
      Forall (fun q => snd q <> []) (sp_queue sp1) /\ Forall (fun q => snd q <> []) (po_handler so) /\
      match po_ptr so with Some q => snd q <> [] | None => True end).
    { intros op sp so sp1 Ec Fq.
      assert (ADV : forall t h, let '(out, sp2) := spec_deliver h (spec_advance step t sp) in
         Forall (fun q => snd q <> []) (sp_queue sp2) /\ Forall (fun q => snd q <> []) out).
      { intros t h. unfold spec_advance. destruct (t <? _); unfold spec_deliver; destruct h; simpl; auto.
        - rewrite app_nil_r. auto.
        - split; auto. destruct (sp_open sp); constructor; auto. simpl. discriminate.
        - split; auto. apply Forall_app. split; auto. destruct (sp_open sp); constructor; auto. simpl. discriminate. }
      assert (PUT : forall t1 t2 h x, spec_put step t1 t2 h x sp = (so, sp1) ->
        Forall (fun q => snd q <> []) (sp_queue sp1) /\ Forall (fun q => snd q <> []) (po_handler so) /\
        match po_ptr so with Some q => snd q <> [] | None => True end).
      { intros t1 t2 h x Ep. unfold spec_put in Ep. specialize (ADV t1 h). destruct (spec_deliver h _) as [out sp2].
        destruct ADV as [A B]. destruct (_ <? _); injection Ep as <- <-; simpl; auto. }
      destruct op; simpl in Ec; eauto.
      - specialize (ADV (acc_time step res c0 ts0) h). destruct (spec_deliver h _) as [out sp2]. destruct ADV.
        injection Ec as <- <-. simpl. auto.
      - destruct (sp_queue sp) eqn:Eq; injection Ec as <- <-; simpl; rewrite ?Eq; auto.
        inversion Fq; auto.
      - destruct (sp_queue sp) eqn:Eq; injection Ec as <- <-; simpl.
        + destruct (sp_open sp); simpl; repeat split; auto; discriminate.
        + inversion Fq; auto.
      - injection Ec as <- <-. simpl. destruct (sp_open sp); simpl; repeat split; auto; discriminate.
      - injection Ec as <- <-. simpl. auto. }
    assert (NEA : forall x c1 c2 a so a1, aspec_add step res x c1 c2 a = (so, a1) ->
      Forall (fun q => snd q <> []) (as_q a) -> Forall (fun q => snd q <> []) (sp_queue (as_sp a)) ->
      (Forall (fun q => snd q <> []) (as_q a1) /\ Forall (fun q => snd q <> []) (sp_queue (as_sp a1))) /\
      Forall (fun q => snd q <> []) (po_handler so) /\ match po_ptr so with Some q => snd q <> [] | None => True end).
    { intros x c1 c2 a so a1 EA F1 F2. unfold aspec_add in EA. destruct (negb (as_en a)); [injection EA as <- <-; simpl; auto|].
      destruct (spec_call _ _ _ _) as [s1 sp1] eqn:Ec. apply NE1 in Ec as (A & B & C); auto.
      injection EA as -> <-. destruct (po_bool so) as [[|]|]; simpl; repeat split; auto.
      apply Forall_app; auto. }
    assert (NE2 : forall op a so a1, aspec_call step res op a = (so, a1) ->
      Forall (fun q => snd q <> []) (as_q a) -> Forall (fun q => snd q <> []) (sp_queue (as_sp a)) ->
      (Forall (fun q => snd q <> []) (as_q a1) /\ Forall (fun q => snd q <> []) (sp_queue (as_sp a1))) /\
      Forall (fun q => snd q <> []) (po_handler so) /\ match po_ptr so with Some q => snd q <> [] | None => True end).
    { intros op a so a1 EA F1 F2. destruct op; unfold aspec_call in EA.
      - eapply NEA; eauto.
      - destruct (negb h); [eapply NEA; eauto|]. destruct (negb (as_en a)); [injection EA as <- <-; simpl; auto|].
        destruct (spec_call _ _ _ _) as [s1 sp1] eqn:Ec. apply NE1 in Ec as (A & B & C); auto. injection EA as -> <-. simpl. auto.
      - destruct (spec_call _ _ _ _) as [s1 sp1] eqn:Ec. apply NE1 in Ec as (A & B & C); auto. injection EA as -> <-. simpl.
        repeat split; auto. apply Forall_app; auto.
      - destruct (as_q a) eqn:Eq; injection EA as <- <-; simpl; rewrite ?Eq; auto. inversion F1; auto.
      - destruct (spec_call _ _ _ _) as [s1 sp1] eqn:Ec. apply NE1 in Ec as (A & B & C); auto. injection EA as -> <-. simpl. auto.
      - destruct (spec_call _ _ _ _) as [s1 sp1] eqn:Ec. apply NE1 in Ec as (A & B & C); auto. injection EA as -> <-. simpl. auto.
      - injection EA as <- <-. simpl. auto.
      - destruct (spec_call _ _ _ _) as [s1 sp1] eqn:Ec. apply NE1 in Ec as (A & B & C); auto. injection EA as -> <-. simpl. auto. }
    assert (NER : forall ops a, Forall (fun q => snd q <> []) (as_q a) -> Forall (fun q => snd q <> []) (sp_queue (as_sp a)) ->
      let '(os, a1) := aspec_run step res ops a in
      Forall (fun q => snd q <> []) (as_q a1) /\
      Forall (fun so => Forall (fun q => snd q <> []) (po_handler so) /\ match po_ptr so with Some q => snd q <> [] | None => True end) os).
    { clear - NE2. induction ops as [|op ops IH]; intros a F1 F2; simpl; auto.
      destruct (aspec_call step res op a) as [so a1] eqn:Ec. apply NE2 in Ec as ((A1 & A2) & B & C); auto.
      specialize (IH a1 A1 A2). destruct (aspec_run step res ops a1) as [os a2]. destruct IH. auto. }
    specialize (NER ops (mk_as (mk_spec (agg_label g0) [] []) [] true) (Forall_nil _) (Forall_nil _)).
    destruct (aspec_run step res ops _) as [os a']. destruct R as ((_ & Q & _) & R2 & L1 & L2). destruct NER as [N1 N2].
    assert (ALL : forall l m, Forall2 (drel ro (ao_out o)) l m -> Forall (fun q => snd q <> []) l ->
      Forall (fun d => exists w gr, gr <> [] /\ delivery_of ne ro (ao_out o) w gr d) m).
    { induction 1 as [|q d l m H F IH]; intros N; constructor.
      - exists (fst q), (snd q). split; [exact (Forall_inv N)|exact H].
      - apply IH. exact (Forall_inv_tail N). }
    split; [|eapply ALL; eauto].
    clear - R2 L1 L2 N2 ALL. revert os outs L1 L2 R2 N2.
    induction ops as [|op ops IH]; intros [|so os] [|r rs] L1 L2 R2 N2; try discriminate; constructor.
    - simpl in R2. inversion R2 as [|? ? ? ? H F]; subst. simpl in H. destruct H as (H1 & H2 & H3).
      inversion N2 as [|? ? [N3 N4] N5]; subst. split.
      + destruct op; auto; eapply ALL; eauto.
      + destruct (out_ptr r) as [d|]; [|destruct op; auto]. destruct (po_ptr so) as [q|]; [|contradiction].
        destruct op; try (exists (fst q), (snd q); split; [exact N4|exact H3]).
        destruct H3 as (a & b & H3 & H4 & H5 & H6). exists (fst q), (snd q), a, b. auto.
    - simpl in R2. inversion R2; subst. inversion N2; subst. apply (IH os rs); auto.
  Qed.

  (** * Totality *)
  Lemma gcall_total o out step res g a op : 0 < step <= i64_max -> ASim o out step res g a ->
    i64 (sp_cur (as_sp a)) -> open_safe (sp_open (as_sp a)) -> gop_typed op -> gop_safe step op ->
    exists r g', g_call ne op g = Ok (r, g').
  Proof.
    intros Hs (SI & Q & EN & OU) IC OS HT HS.
    assert (CT : forall sop, sop_typed sop -> sop_safe step sop -> exists r s', s_call ne sop (g_sep g) = Ok (r, s'))
      by (intros; eapply (call_total ne Hne); eauto).
    assert (AG : forall g1, exists g2, g_aggregate0_ ne g1 = Ok g2).
    { intros g1. unfold g_aggregate0_. destruct (finish_all_spec ne Hne (g_out g1) (s_list (g_sep g1))) as (ds & E & _).
      rewrite E. cbn [bind]. eauto. }
    assert (ADD : forall x c1 c2, op_typed (sm_op x) -> not_list x -> sop_safe step (SoAdd x c1 c2) ->
       exists b g', g_add_with ne (sadd_of ne x c1 c2) g = Ok (b, g')).
    { intros x c1 c2 Hx Hl Hsf. unfold g_add_with. destruct (negb (g_enabled g)); eauto.
      destruct (CT (SoAdd x c1 c2) Hx Hsf) as (r & s1 & E). rewrite s_call_add in E by auto.
      destruct (sadd_of ne x c1 c2 (g_sep g)) as [[[b rc] s2]| |]; cbn [bind] in *; try discriminate.
      destruct (negb b); eauto. destruct (AG (g_set_sep s2 g)) as (g2 & ->). cbn [bind]. eauto. }
    destruct op.
    - destruct HT as [HT HL]. rewrite call_add by auto. destruct (ADD x c1 c2 HT HL HS) as (b & g' & ->). cbn [bind]. eauto.
    - destruct HT as [HT HL]. rewrite call_push by auto. unfold g_push_with. destruct (negb (g_enabled g)); cbn [bind]; eauto.
      destruct (negb h).
      + destruct (ADD x c1 c2 HT HL HS) as (b & g' & ->). cbn [bind]. eauto.
      + destruct (CT (SoPush x c1 c2) (conj HT HL) HS) as (r & s1 & E). rewrite s_call_push in E by auto.
        destruct (spush_of ne x c1 c2 (g_sep g)) as [[[b rc] s2]| |]; cbn [bind] in *; try discriminate.
        destruct (finish_all_spec ne Hne (g_out g) rc) as (ds & -> & _). cbn [bind]. eauto.
    - destruct (CT (SoSeparate ts h force c) I HS) as (r & s1 & E). simpl in E |- *. unfold g_separate.
      destruct (s_separate ne c ts h force (g_sep g)) as [[[b rc] s2]| |]; cbn [bind] in *; try discriminate.
      destruct (AG (g_set_sep s2 g)) as (g2 & ->). cbn [bind]. eauto.
    - simpl. destruct (g_pop g). eauto.
    - destruct (CT SoForcePop I I) as (r & s1 & E). simpl in E |- *. unfold g_force_pop.
      destruct (s_force_pop ne (g_sep g)) as [[d s2]| |]; cbn [bind] in *; try discriminate.
      destruct d as [d|]; cbn [bind]; eauto. destruct (finish_spec ne Hne (g_out g) d) as (d' & -> & _). cbn [bind]. eauto.
    - destruct (CT SoPeek I I) as (r & s1 & E). simpl in E |- *. unfold g_current.
      destruct (s_get_current ne (g_sep g)) as [d| |]; cbn [bind] in *; try discriminate.
      destruct d as [d|]; cbn [bind]; eauto. destruct (finish_spec ne Hne (g_out g) d) as (d' & -> & _). cbn [bind]. eauto.
    - simpl. eauto.
    - destruct (CT (SoClear ts c) I HS) as (r & s1 & E). simpl in E |- *. unfold g_clear.
      destruct (s_clear c ts (g_sep g)) as [s2| |]; cbn [bind] in *; try discriminate. eauto.
  Qed.

  Lemma aspec_call_safe step res op a : 0 < step <= i64_max -> gop_safe step op -> i64_min <= sp_cur (as_sp a) ->
    Forall val_safe (values (sp_open (as_sp a))) ->
    let sp' := as_sp (snd (aspec_call step res op a)) in
    i64_min <= sp_cur sp' /\ Forall val_safe (values (sp_open sp')) /\
    (length (values (sp_open sp')) <= length (values (sp_open (as_sp a))) + length (gop_values op))%nat.
  Proof.
    intros Hs HS IC OS.
    assert (SC : forall sop, sop_safe step sop -> let sp' := snd (spec_call step res sop (as_sp a)) in
      i64_min <= sp_cur sp' /\ Forall val_safe (values (sp_open sp')) /\
      (length (values (sp_open sp')) <= length (values (sp_open (as_sp a))) + length (sop_values sop))%nat)
      by (intros; eapply spec_call_safe; eauto).
    assert (ADD : forall x c1 c2, sop_safe step (SoAdd x c1 c2) -> let sp' := as_sp (snd (aspec_add step res x c1 c2 a)) in
      i64_min <= sp_cur sp' /\ Forall val_safe (values (sp_open sp')) /\
      (length (values (sp_open sp')) <= length (values (sp_open (as_sp a))) + length (op_values (sm_op x)))%nat).
    { intros x c1 c2 H. unfold aspec_add. destruct (negb (as_en a)); [simpl; repeat split; auto; lia|].
      specialize (SC (SoAdd x c1 c2) H). cbv zeta in SC. destruct (spec_call _ _ _ _) as [so sp1].
      cbn [snd sop_values] in *. destruct (po_bool so) as [[|]|]; exact SC. }
    destruct op; unfold aspec_call.
    - apply ADD. exact HS.
    - destruct (negb h); [apply ADD; exact HS|]. destruct (negb (as_en a)); [simpl; repeat split; auto; lia|].
      specialize (SC (SoPush x c1 c2) HS). cbv zeta in SC. destruct (spec_call _ _ _ _) as [so sp1]. exact SC.
    - specialize (SC (SoSeparate ts h force c) HS). cbv zeta in SC. destruct (spec_call _ _ _ _) as [so sp1]. exact SC.
    - destruct (as_q a); simpl; repeat split; auto; lia.
    - specialize (SC SoForcePop I). cbv zeta in SC. destruct (spec_call _ _ _ _) as [so sp1]. exact SC.
    - specialize (SC SoPeek I). cbv zeta in SC. destruct (spec_call _ _ _ _) as [so sp1]. exact SC.
    - simpl; repeat split; auto; lia.
    - specialize (SC (SoClear ts c) HS). cbv zeta in SC. destruct (spec_call _ _ _ _) as [so sp1]. exact SC.
  Qed.

  Lemma grun_total o out step res ops : 0 < step <= i64_max -> Forall gop_typed ops -> Forall (gop_safe step) ops ->
    forall g a, ASim o out step res g a -> i64_min <= sp_cur (as_sp a) ->
    Forall val_safe (values (sp_open (as_sp a))) ->
    Z.of_nat (length (values (sp_open (as_sp a))) + length (flat_map gop_values ops)) < two64 ->
    exists outs g', g_run ne g ops = Ok (outs, g').
  Proof.
    intros Hs. induction ops as [|op ops IH]; intros HT HS g a SI IC OS HL; [simpl; eauto|].
    simpl in HL. rewrite app_length in HL. assert (SI' := SI). destruct SI' as ((S1 & S2 & S3 & S4 & _) & _).
    destruct (gcall_total o out step res g a op Hs SI) as (r & g1 & E).
    { rewrite S3 in S4. unfold i64 in *. lia. }
    { split; auto. lia. }
    { exact (Forall_inv HT). }
    { exact (Forall_inv HS). }
    cbn [g_run]. rewrite E. cbn [bind].
    pose proof (gcall_sim ne Hne o out step res g a op r g1 ltac:(lia) SI (Forall_inv HT) E) as C.
    pose proof (aspec_call_safe step res op a Hs (Forall_inv HS) IC OS) as P. cbv zeta in P.
    destruct (aspec_call step res op a) as [so a1]. destruct C as [_ C]. cbn [snd] in P. destruct P as (P1 & P2 & P3).
    destruct (IH (Forall_inv_tail HT) (Forall_inv_tail HS) g1 a1 C P1 P2 ltac:(lia)) as (os & g2 & E2).
    rewrite E2. cbn [bind]. eauto.
  Qed.

  Lemma gnew_run_total o c rnd ts g0 ops : 0 < so_step (ao_sep o) <= i64_max -> agg_new o c rnd ts = Ok g0 ->
    Forall gop_typed ops -> Forall (gop_safe (so_step (ao_sep o))) ops ->
    Z.of_nat (length (flat_map gop_values ops)) < two64 ->
    exists outs g, g_run ne g0 ops = Ok (outs, g).
  Proof.
    intros Hs E HT HS HL. pose proof (new_asim ne o c rnd ts g0 ltac:(lia) E) as SI.
    apply (grun_total (so_red (ao_sep o)) (ao_out o) _ _ ops Hs HT HS g0 _ SI); simpl; auto.
    unfold agg_new in E. destruct (sep_new (ao_sep o) c rnd ts) as [s| |] eqn:Es; cbn [bind] in E; try discriminate.
    injection E as <-. destruct (new_sim ne (ao_sep o) c rnd ts s ltac:(lia) Es) as (_ & I & _). apply I.
  Qed.

  (** * C24 *)
  Lemma disabled_call op g : g_enabled g = false -> gop_typed op ->
    match op with
    | GoAdd _ _ _ | GoPush _ _ _ _ => g_call ne op g = Ok (mk_sout (Some true) [] None, g)
    | _ => True
    end.
  Proof.
    intros E HT. destruct op; auto; destruct HT as [_ HL].
    - rewrite call_add by auto. unfold g_add_with. rewrite E. reflexivity.
    - rewrite call_push by auto. unfold g_push_with. rewrite E. reflexivity.
  Qed.
  Lemma enabled_call op g r g' : g_call ne op g = Ok (r, g') -> g_enabled g' = en_after op (g_enabled g).
  Proof.
    intros E.
    assert (AG : forall g1 g2, g_aggregate0_ ne g1 = Ok g2 -> g_enabled g2 = g_enabled g1).
    { intros g1 g2 E1. unfold g_aggregate0_ in E1. destruct (g_finish_all _ _ _); cbn [bind] in E1; try discriminate.
      now injection E1 as <-. }
    assert (ADD : forall f b g1, g_add_with ne f g = Ok (b, g1) -> g_enabled g1 = g_enabled g).
    { intros f b g1 E1. unfold g_add_with in E1. destruct (negb (g_enabled g)); [now injection E1 as _ <-|].
      destruct (f (g_sep g)) as [[[b1 rc] s1]| |]; cbn [bind] in E1; try discriminate.
      destruct (negb b1); [now injection E1 as _ <-|].
      destruct (g_aggregate0_ ne _) as [g2| |] eqn:EA; cbn [bind] in E1; try discriminate. injection E1 as _ <-.
      apply AG in EA. auto. }
    assert (PUSH : forall f1 f2 h b rc g1, g_push_with ne f1 f2 h g = Ok (b, rc, g1) -> g_enabled g1 = g_enabled g).
    { intros f1 f2 h b rc g1 E1. unfold g_push_with in E1. destruct (negb (g_enabled g)); [now injection E1 as _ _ <-|].
      destruct (negb h).
      - destruct (g_add_with ne f1 g) as [[b1 g2]| |] eqn:EA; cbn [bind] in E1; try discriminate. injection E1 as _ _ <-. eauto.
      - destruct (f2 (g_sep g)) as [[[b1 rc1] s1]| |]; cbn [bind] in E1; try discriminate.
        destruct (g_finish_all _ _ _); cbn [bind] in E1; try discriminate. now injection E1 as _ _ <-. }
    destruct op; simpl in E; simpl en_after.
    - destruct x; try discriminate;
        match type of E with bind ?x _ = _ => destruct x as [[b g1]| |] eqn:EA end; cbn [bind] in E; try discriminate;
        injection E as _ <-; eapply ADD; exact EA.
    - destruct x; try discriminate;
        match type of E with bind ?x _ = _ => destruct x as [[[b rc] g1]| |] eqn:EA end; cbn [bind] in E; try discriminate;
        injection E as _ <-; eapply PUSH; exact EA.
    - unfold g_separate in E. destruct (s_separate _ _ _ _ _ _) as [[[b rc] s1]| |]; cbn [bind] in E; try discriminate.
      destruct (g_aggregate0_ ne _) as [g2| |] eqn:EA; cbn [bind] in E; try discriminate. injection E as _ <-.
      apply AG in EA. auto.
    - unfold g_pop in E. destruct (g_list g); now injection E as _ <-.
    - unfold g_force_pop in E. destruct (s_force_pop _ _) as [[d s1]| |]; cbn [bind] in E; try discriminate.
      destruct d as [d|]; cbn [bind] in E; [|now injection E as _ <-].
      destruct (g_finish _ _ _); cbn [bind] in E; try discriminate. now injection E as _ <-.
    - destruct (g_current ne g); cbn [bind] in E; try discriminate. now injection E as _ <-.
    - now injection E as _ <-.
    - unfold g_clear in E. destruct (s_clear _ _ _); cbn [bind] in E; try discriminate. now injection E as _ <-.
  Qed.

  Lemma effective_run ops : Forall gop_typed ops -> forall g outs g', g_run ne g ops = Ok (outs, g') ->
    exists outs', g_run ne g (effective (g_enabled g) ops) = Ok (outs', g') /\
      flat_map out_handler outs' = flat_map out_handler outs /\
      gpopped (effective (g_enabled g) ops) (map out_ptr outs') = gpopped ops (map out_ptr outs).
  Proof.
    induction ops as [|op ops IH]; intros HT g outs g' E; [simpl in *; injection E as <- <-; simpl; eauto|].
    cbn [g_run] in E. destruct (g_call ne op g) as [[r g1]| |] eqn:Ec; cbn [bind] in E; try discriminate.
    destruct (g_run ne g1 ops) as [[os g2]| |] eqn:Er; cbn [bind] in E; try discriminate. injection E as <- <-.
    specialize (IH (Forall_inv_tail HT) g1 os g2 Er). pose proof (enabled_call op g r g1 Ec) as EN.
    pose proof (disabled_call op g) as DC.
    assert (KEEP : exists outs', g_run ne g (op :: effective (en_after op (g_enabled g)) ops) = Ok (outs', g2) /\
      flat_map out_handler outs' = flat_map out_handler (r :: os) /\
      gpopped (op :: effective (en_after op (g_enabled g)) ops) (map out_ptr outs') = gpopped (op :: ops) (map out_ptr (r :: os))).
    { rewrite <- EN. destruct IH as (os' & I1 & I2 & I3). exists (r :: os'). cbn [g_run]. rewrite Ec. cbn [bind]. rewrite I1. cbn [bind].
      split; auto. simpl. rewrite I2, I3. auto. }
    destruct op; simpl effective; try exact KEEP.
    - destruct (g_enabled g) eqn:Ee; [exact KEEP|]. specialize (DC eq_refl (Forall_inv HT)). simpl in EN.
      rewrite DC in Ec. injection Ec as <- <-. rewrite Ee in IH. exact IH.
    - destruct (g_enabled g) eqn:Ee; [exact KEEP|]. specialize (DC eq_refl (Forall_inv HT)). simpl in EN.
      rewrite DC in Ec. injection Ec as <- <-. rewrite Ee in IH. exact IH.
  Qed.

  (** * C20 *)
  Lemma put_false c1 c2 ts h addf s recs s' : 0 < s_step s ->
    adv_time (s_step s) (s_res s) c1 c2 ts = acc_time (s_step s) (s_res s) c1 ts ->
    s_put ne c1 c2 ts h addf s = Ok (false, recs, s') -> recs = [] /\ s' = s.
  Proof.
    intros Hs HC E. unfold s_put in E.
    destruct (get_ts (s_step s) (s_res s) c1 ts) as [t0| |] eqn:Et; cbn [bind] in E; try discriminate.
    apply get_ts_ok in Et as [-> It]; auto. set (t := acc_time (s_step s) (s_res s) c1 ts) in *.
    unfold s_separate in E.
    destruct (get_ts (s_step s) (s_res s) c2 t) as [t2| |] eqn:Et2; cbn [bind] in E; try discriminate.
    apply get_ts_ok in Et2 as [-> It2]; auto.
    change (acc_time (s_step s) (s_res s) c2 t) with (adv_time (s_step s) (s_res s) c1 c2 ts) in E.
    rewrite HC in E. cbn [negb andb] in E. destruct (Z.ltb_spec t (s_next s)) as [L|L].
    - cbn [bind] in E. destruct (chk (s_next s - s_step s)) as [cc| |] eqn:Ecc; cbn [bind] in E; try discriminate.
      destruct (t <? cc); [|discriminate]. injection E as <- <-. auto.
    - destruct (sep_loop _ _ _ _ _ _) as [[[rc r2] n2]| |] eqn:EL; cbn [bind] in E; try discriminate.
      apply sep_loop_next in EL; auto. rewrite (proj2 (Z.leb_le _ _) L) in EL. subst n2.
      pose proof (window_of_spec (s_next s - s_step s) (s_step s) t Hs) as W.
      cbn [s_next s_step] in E.
      destruct (chk _) as [cc| |] eqn:Ecc in E; cbn [bind] in E; try discriminate.
      apply chk_ok in Ecc as [-> _].
      destruct (Z.ltb_spec t (window_of (s_next s - s_step s) (s_step s) t + s_step s - s_step s)); [lia|]. discriminate.
  Qed.
  Lemma put_frame c1 c2 ts h addf s b recs s' : s_put ne c1 c2 ts h addf s = Ok (b, recs, s') ->
    s_step s' = s_step s /\ s_res s' = s_res s.
  Proof.
    intros E. unfold s_put in E.
    destruct (get_ts (s_step s) (s_res s) c1 ts) as [t| |]; cbn [bind] in E; try discriminate.
    destruct (s_separate ne c2 t h false s) as [[[b1 rc] s1]| |] eqn:Es; cbn [bind] in E; try discriminate.
    assert (F : s_step s1 = s_step s /\ s_res s1 = s_res s).
    { unfold s_separate in Es. destruct (get_ts _ _ _ _); cbn [bind] in Es; try discriminate.
      destruct (_ && _); [now injection Es as _ _ <-|].
      destruct (sep_loop _ _ _ _ _ _) as [[[? ?] ?]| |]; cbn [bind] in Es; try discriminate. now injection Es as _ _ <-. }
    destruct (chk _); cbn [bind] in E; try discriminate. destruct (_ <? _); injection E as _ _ <-; simpl; auto.
  Qed.

  Definition with_glist (l : list adata) (g : agg) : agg := mk_agg (g_sep g) (g_out g) (g_enabled g) l (g_id g).
  Lemma push_queue x c1 c2 g l r g' : gop_typed (GoPush x true c1 c2) -> 0 < s_step (g_sep g) -> s_list (g_sep g) = [] ->
    gcoherent (s_step (g_sep g)) (s_res (g_sep g)) (GoPush x true c1 c2) ->
    g_call ne (GoPush x true c1 c2) g = Ok (r, g') ->
    g_list g' = g_list g /\ s_list (g_sep g') = [] /\ s_step (g_sep g') = s_step (g_sep g) /\ s_res (g_sep g') = s_res (g_sep g) /\
    g_call ne (GoPush x false c1 c2) (with_glist l g) = Ok (mk_sout (out_bool r) [] None, with_glist (l ++ out_handler r) g').
  Proof.
    intros [HT HL] Hs HE HC E. rewrite call_push in E by auto. rewrite call_push by auto.
    unfold g_push_with in *. cbn [g_enabled with_glist negb] in *.
    destruct (g_enabled g) eqn:Ee; cbn [negb] in *.
    2: { cbn [bind] in *. injection E as <- <-. simpl. rewrite app_nil_r. repeat split; auto. }
    destruct (spush_of ne x c1 c2 (g_sep g)) as [[[b rc] s1]| |] eqn:Es; cbn [bind] in E; try discriminate.
    destruct (g_finish_all ne (g_out g) rc) as [ds| |] eqn:EF; cbn [bind] in E; try discriminate. injection E as <- <-.
    assert (EP : exists addf, s_put ne c1 c2 (sm_ts x) true addf (g_sep g) = Ok (b, rc, s1) /\
                 forall s, sadd_of ne x c1 c2 s = s_put ne c1 c2 (sm_ts x) false addf s).
    { destruct x; try contradiction; simpl in *; eexists; (split; [exact Es|reflexivity]). }
    destruct EP as (addf & EP & EA).
    destruct (put_frame _ _ _ _ _ _ _ _ _ EP) as [F1 F2].
    destruct (put_handler ne _ _ _ _ _ [] _ _ _ EP) as [A1 A2].
    assert (WS : with_list [] (g_sep g) = g_sep g) by (rewrite <- HE; apply with_list_same).
    rewrite WS in A2. unfold g_add_with. cbn [g_enabled with_glist g_sep]. rewrite EA, A2, Ee. cbn [bind negb].
    simpl out_bool. simpl out_handler.
    split; [reflexivity|]. split; [simpl; congruence|]. split; [exact F1|]. split; [exact F2|].
    destruct b; cbn [negb].
    - unfold g_aggregate0_. cbn [g_set_sep g_sep g_out s_list with_list with_glist app]. rewrite EF. cbn [bind].
      unfold with_glist, g_set_sep. simpl. repeat f_equal. destruct s1; simpl in *. f_equal. congruence.
    - destruct (put_false _ _ _ _ _ _ _ _ Hs HC EP) as [-> ->]. simpl in EF. injection EF as <-. simpl. rewrite app_nil_r.
      unfold with_glist, g_set_sep. simpl. rewrite WS. reflexivity.
  Qed.

  Lemma push_queue_run ops : Forall gop_typed ops -> Forall gpush_h ops -> forall g l outs g',
    0 < s_step (g_sep g) -> s_list (g_sep g) = [] -> Forall (gcoherent (s_step (g_sep g)) (s_res (g_sep g))) ops ->
    g_run ne g ops = Ok (outs, g') ->
    g_list g' = g_list g /\
    exists outs', g_run ne (with_glist l g) (map gpush_no ops) = Ok (outs', with_glist (l ++ flat_map out_handler outs) g') /\
      map out_bool outs' = map out_bool outs.
  Proof.
    induction ops as [|op ops IH]; intros HT HP g l outs g' Hs HE HC E; cbn [g_run] in E.
    - injection E as <- <-. split; auto. exists []. simpl. rewrite app_nil_r. auto.
    - destruct (g_call ne op g) as [[r g1]| |] eqn:Ec; cbn [bind] in E; try discriminate.
      destruct (g_run ne g1 ops) as [[os g2]| |] eqn:Er; cbn [bind] in E; try discriminate. injection E as <- <-.
      assert (HP1 := Forall_inv HP). destruct op; simpl in HP1; try contradiction. subst h.
      destruct (push_queue x c1 c2 g l r g1 (Forall_inv HT) Hs HE (Forall_inv HC) Ec) as (A1 & A2 & A3 & A4 & A5).
      destruct (IH (Forall_inv_tail HT) (Forall_inv_tail HP) g1 (l ++ out_handler r) os g2) as (B1 & os' & B2 & B3); auto; try congruence.
      { rewrite A3, A4. exact (Forall_inv_tail HC). }
      split; [congruence|]. exists (mk_sout (out_bool r) [] None :: os'). cbn [map gpush_no g_run]. rewrite A5. cbn [bind]. rewrite B2. cbn [bind flat_map].
      rewrite app_assoc. split; auto. cbn [out_bool]. congruence.
  Qed.
  Lemma push_is_queue g ops outs g' : Forall gop_typed ops -> Forall gpush_h ops ->
    0 < s_step (g_sep g) -> s_list (g_sep g) = [] -> Forall (gcoherent (s_step (g_sep g)) (s_res (g_sep g))) ops ->
    g_run ne g ops = Ok (outs, g') ->
    g_list g' = g_list g /\
    exists outs', g_run ne g (map gpush_no ops) =
        Ok (outs', mk_agg (g_sep g') (g_out g') (g_enabled g') (g_list g ++ flat_map out_handler outs) (g_id g')) /\
      map out_bool outs' = map out_bool outs.
  Proof.
    intros. pose proof (push_queue_run ops H H0 g (g_list g) outs g' H1 H2 H3 H4) as R.
    replace (with_glist (g_list g) g) with g in R by (destruct g; reflexivity). exact R.
  Qed.

  (** * C26: force_pop *)
  Lemma force_pop_open o ops g0 outs g d g' : 0 < so_step (ao_sep o) -> g_idle ne o g0 ->
    Forall gop_typed ops -> Forall gregular ops -> Forall (gcoherent (so_step (ao_sep o)) (so_res (ao_sep o))) ops ->
    g_run ne g0 ops = Ok (outs, g) -> g_force_pop ne g = Ok (d, g') ->
    let gr := ops_in (agg_label g0) (so_step (ao_sep o)) (agg_label g)
                (recorded (so_step (ao_sep o)) (so_res (ao_sep o)) (g_enabled g0) ops (map out_bool outs)) in
    g_list g' = g_list g /\
    match d with
    | None => gr = []
    | Some x => gr <> [] /\ delivery_of ne (so_red (ao_sep o)) (ao_out o) (agg_label g) gr x
    end.
  Proof.
    intros Hs E0 HT HR HC E EF gr.
    destruct (ggroup o ops g0 outs g Hs E0 HT HR HC E) as (L & R & _). fold gr in R.
    assert (OU : g_out g = ao_out o).
    { pose proof (idle_asim ne Hne o g0 Hs E0) as SI.
      pose proof (grun_sim ne Hne _ _ _ _ ops Hs HT g0 _ outs g SI E) as R'.
      destruct (aspec_run _ _ ops _). destruct R' as ((_ & _ & _ & OU) & _). exact OU. }
    assert (LB : s_next (g_sep g) - s_step (g_sep g) = agg_label g) by reflexivity.
    unfold g_force_pop, s_force_pop, s_pop in EF. rewrite L in EF.
    destruct (r_detach ne (s_red (g_sep g))) as [[a r1]| |] eqn:Ed; cbn [bind] in EF; try discriminate.
    destruct (reach_detach ne Hne _ _ _ a r1 R Ed) as [_ D]. rewrite LB in EF.
    destruct gr as [|x0 gr0].
    - destruct D as [-> _]. cbn [bind] in EF. injection EF as <- <-. auto.
    - destruct D as (y & -> & D). cbn [bind] in EF.
      destruct (chk (agg_label g)) as [t| |] eqn:Et; cbn [bind] in EF; try discriminate.
      apply chk_ok in Et as [-> _].
      destruct (g_finish ne (g_out g) (ad_set_ts (agg_label g) y)) as [x| |] eqn:Ef; cbn [bind] in EF; try discriminate.
      injection EF as <- <-. split; auto. split; [discriminate|]. apply (finish_fun ne Hne) in Ef. rewrite OU in Ef.
      exists (ad_set_ts (agg_label g) y). auto.
  Qed.

  Lemma gpop_spec g : let '(d, g') := g_pop g in
    match d with
    | None => g_list g = [] /\ g' = g
    | Some x => g_list g = x :: g_list g' /\ g_sep g' = g_sep g /\ g_enabled g' = g_enabled g
    end.
  Proof. unfold g_pop. destruct (g_list g); simpl; auto. Qed.

  (** * C27 *)
  Lemma clear_idle o c rnd ts g0 ops outs g c1 ts1 g' : 0 < so_step (ao_sep o) -> agg_new o c rnd ts = Ok g0 ->
    Forall gop_typed ops -> g_run ne g0 ops = Ok (outs, g) -> g_clear c1 ts1 g = Ok g' ->
    g_idle ne o g' /\ agg_label g' = acc_time (so_step (ao_sep o)) (so_res (ao_sep o)) c1 ts1 /\
    g_enabled g' = g_enabled g /\ g_size g' = 0%nat /\ g_data_size g' = 0%nat.
  Proof.
    intros Hs E0 HT E EC.
    assert (E' : g_run ne g0 (ops ++ [GoClear ts1 c1]) = Ok (outs ++ [mk_sout None [] None], g')).
    { clear - E EC. revert g0 outs E. induction ops as [|op ops IH]; intros g0 outs E; cbn [g_run] in E.
      - injection E as <- <-. simpl. rewrite EC. reflexivity.
      - destruct (g_call ne op g0) as [[r g1]| |] eqn:Ec; cbn [bind] in E; try discriminate.
        destruct (g_run ne g1 ops) as [[os g2]| |] eqn:Er; cbn [bind] in E; try discriminate. injection E as <- <-.
        cbn [app g_run]. rewrite Ec. cbn [bind]. rewrite (IH g1 os Er). reflexivity. }
    pose proof (new_asim ne o c rnd ts g0 Hs E0) as SI.
    pose proof (grun_sim ne Hne _ _ _ _ ops Hs HT g0 _ outs g SI E) as R.
    destruct (aspec_run _ _ ops _) as [os a]. destruct R as (AS & _).
    assert (EC' : g_call ne (GoClear ts1 c1) g = Ok (mk_sout None [] None, g')) by (simpl; now rewrite EC).
    pose proof (gcall_sim ne Hne _ _ _ _ g a (GoClear ts1 c1) _ g' Hs AS I EC') as C. simpl in C.
    destruct C as (_ & (S1 & S2 & S3 & S4 & S5 & S6) & Q & EN & _). simpl in *.
    assert (EMP : r_empty (s_red (g_sep g')) = true) by (exact (reach_empty ne Hne _ _ _ S5)).
    assert (GL : g_list g' = []) by (now inversion Q). assert (SL : s_list (g_sep g') = []) by (now inversion S6).
    split; [|split; [|split; [|split]]].
    - exists c, rnd, ts, g0, (ops ++ [GoClear ts1 c1]), (outs ++ [mk_sout None [] None]).
      split; auto. split; [apply Forall_app; split; auto; constructor; auto; exact I|]. split; auto. split; auto. split; auto.
      unfold g_current, s_get_current, r_get_reduced, r_detach. unfold r_clone. cbn [r_empty]. rewrite EMP. reflexivity.
    - unfold agg_label, sep_label. lia.
    - destruct AS as (_ & _ & EN' & _). congruence.
    - unfold g_size. now rewrite GL.
    - unfold g_data_size, s_data_size. rewrite GL, SL. simpl.
      unfold g_clear, s_clear in EC. destruct (get_ts _ _ _ _); cbn [bind] in EC; try discriminate.
      destruct (chk _); cbn [bind] in EC; try discriminate. injection EC as <-. reflexivity.
  Qed.
End NE.

Section NE2.
  Variable ne : nat -> list Z -> list Z.
  Hypothesis Hne : nth_element_ok ne.

  Lemma delivered_all o c rnd ts g0 ops outs g : 0 < so_step (ao_sep o) -> agg_new o c rnd ts = Ok g0 ->
    Forall gop_typed ops -> g_run ne g0 ops = Ok (outs, g) ->
    Forall (fun d => exists w gr a b, gr <> [] /\ record_of ne (so_red (ao_sep o)) w gr b /\ same_summary a b /\
              ad_ts a = w /\ finished (ao_out o) a d) (deliveries ops outs ++ g_list g).
  Proof.
    intros Hs E0 HT E. destruct (gdelivered ne Hne o c rnd ts g0 ops outs g Hs E0 HT E) as [F G].
    assert (W : forall d, (exists w gr, gr <> [] /\ delivery_of ne (so_red (ao_sep o)) (ao_out o) w gr d) ->
      exists w gr a b, gr <> [] /\ record_of ne (so_red (ao_sep o)) w gr b /\ same_summary a b /\
              ad_ts a = w /\ finished (ao_out o) a d).
    { intros d (w & gr & N & a & R & F1). exists w, gr, a, a. split; auto. split; auto. split; [unfold same_summary; auto 10|].
      split; auto. destruct R as (ops1 & a0 & _ & _ & _ & ->). reflexivity. }
    apply Forall_app. split.
    - clear - F W. induction F as [|op r ops outs [H1 H2] F IH]; simpl; auto.
      apply Forall_app. split; [|apply Forall_app; split; auto].
      + destruct op; try (eapply Forall_impl; [exact W|exact H1]). constructor.
      + destruct (out_ptr r) as [d|]; auto. constructor; auto. destruct op; auto.
    - eapply Forall_impl; [exact W|exact G].
  Qed.

  Lemma finished_ordered out a d : finished out a d -> ad_data d <> [] ->
    let p := ad_perc d in p50 p <= p80 p <= p95 p /\ p95 p <= p99 p <= p100 p.
  Proof.
    intros (_ & (v & P & S) & _ & H & _) N p.
    assert (NA : ad_data a <> []).
    { intros X. rewrite X in P. apply Permutation_sym, Permutation_nil in P. subst v. inversion S. congruence. }
    destruct (H NA) as ((H1 & H2 & H3 & H4) & H5 & _). fold p in H1, H2, H3, H4, H5.
    set (n := length (ad_data a)) in *.
    pose proof (rank_is_mono _ _ _ _ _ (perc_le n 50 80 ltac:(lia)) H1 H2).
    pose proof (rank_is_mono _ _ _ _ _ (perc_le n 80 95 ltac:(lia)) H2 H3).
    pose proof (rank_is_mono _ _ _ _ _ (perc_le n 95 99 ltac:(lia)) H3 H4). lia.
  Qed.

  Lemma perc_ordered o c rnd ts g0 ops outs g : 0 < so_step (ao_sep o) -> agg_new o c rnd ts = Ok g0 ->
    Forall gop_typed ops -> g_run ne g0 ops = Ok (outs, g) ->
    Forall (fun d => ad_data d <> [] ->
      let p := ad_perc d in p50 p <= p80 p <= p95 p /\ p95 p <= p99 p <= p100 p) (deliveries ops outs ++ g_list g).
  Proof.
    intros. eapply Forall_impl; [|eapply delivered_all; eauto].
    intros d (w & gr & a & b & _ & _ & _ & _ & F) N. eapply finished_ordered; eauto.
  Qed.
  Lemma perc100_max o c rnd ts g0 ops outs g : 0 < so_step (ao_sep o) -> agg_new o c rnd ts = Ok g0 ->
    Forall gop_typed ops -> g_run ne g0 ops = Ok (outs, g) -> (o_limit (so_red (ao_sep o)) <= 200)%nat ->
    Forall (fun d => forall v, In v (ad_data d) -> v <= p100 (ad_perc d)) (deliveries ops outs ++ g_list g).
  Proof.
    intros Hs E0 HT E HL. eapply Forall_impl; [|eapply delivered_all; eauto].
    intros d (w & gr & a & b & _ & (ops1 & a0 & T & _ & PU & ->) & SS & _ & F) v Hv.
    assert (LA : length (ad_data a) = length (ad_data a0)) by apply SS.
    pose proof (finished_sub _ _ _ F) as [r Pr].
    destruct F as (_ & _ & _ & H & _).
    assert (IA : In v (ad_data a)) by (eapply Permutation_in; [exact Pr|apply in_or_app; auto]).
    destruct H as (_ & _ & _ & M); [intros X; rewrite X in IA; destruct IA|].
    assert (L200 : (length (ad_data a) <= 200)%nat); [|destruct (M L200) as [_ M2]; rewrite Forall_forall in M2; auto]. rewrite LA.
    pose proof (pub_size ne Hne _ _ _ T PU) as LS. destruct (o_levels _ =? 0)%nat; simpl in *; lia.
  Qed.

  Lemma fifo_call op g r g' : g_call ne op g = Ok (r, g') -> gnot_clear op ->
    exists new, g_list g ++ new = (match op, out_ptr r with GoPop, Some a => [a] | _, _ => [] end) ++ g_list g' /\
      (match op with GoPop | GoForcePop | GoCurrent | GoEnable _ => new = [] | _ => True end).
  Proof.
    intros E HN.
    assert (AG : forall g1 g2, g_aggregate0_ ne g1 = Ok g2 -> exists new, g_list g2 = g_list g1 ++ new).
    { intros g1 g2 E1. unfold g_aggregate0_ in E1. destruct (g_finish_all _ _ _); cbn [bind] in E1; try discriminate.
      injection E1 as <-. simpl. eauto. }
    assert (ADD : forall f b g1, g_add_with ne f g = Ok (b, g1) -> exists new, g_list g1 = g_list g ++ new).
    { intros f b g1 E1. unfold g_add_with in E1. destruct (negb (g_enabled g)); [injection E1 as _ <-; exists []; now rewrite app_nil_r|].
      destruct (f (g_sep g)) as [[[b1 rc] s1]| |]; cbn [bind] in E1; try discriminate.
      destruct (negb b1); [injection E1 as _ <-; exists []; now rewrite app_nil_r|].
      destruct (g_aggregate0_ ne _) as [g2| |] eqn:EA; cbn [bind] in E1; try discriminate. injection E1 as _ <-.
      apply AG in EA. auto. }
    assert (PUSH : forall f1 f2 h b rc g1, g_push_with ne f1 f2 h g = Ok (b, rc, g1) -> exists new, g_list g1 = g_list g ++ new).
    { intros f1 f2 h b rc g1 E1. unfold g_push_with in E1. destruct (negb (g_enabled g)); [injection E1 as _ _ <-; exists []; now rewrite app_nil_r|].
      destruct (negb h).
      - destruct (g_add_with ne f1 g) as [[b1 g2]| |] eqn:EA; cbn [bind] in E1; try discriminate. injection E1 as _ _ <-. eauto.
      - destruct (f2 (g_sep g)) as [[[b1 rc1] s1]| |]; cbn [bind] in E1; try discriminate.
        destruct (g_finish_all _ _ _); cbn [bind] in E1; try discriminate. injection E1 as _ _ <-. exists []; now rewrite app_nil_r. }
    destruct op; simpl in E, HN; try contradiction.
    - assert (K : exists new, g_list g' = g_list g ++ new).
      { destruct x; try discriminate;
        match type of E with bind ?x _ = _ => destruct x as [[b g1]| |] eqn:EA end; cbn [bind] in E; try discriminate;
        injection E as _ <-; eapply ADD; exact EA. }
      destruct K as (new & ->). exists new. auto.
    - assert (K : exists new, g_list g' = g_list g ++ new).
      { destruct x; try discriminate;
        match type of E with bind ?x _ = _ => destruct x as [[[b rc] g1]| |] eqn:EA end; cbn [bind] in E; try discriminate;
        injection E as _ <-; eapply PUSH; exact EA. }
      destruct K as (new & ->). exists new. auto.
    - unfold g_separate in E. destruct (s_separate _ _ _ _ _ _) as [[[b rc] s1]| |]; cbn [bind] in E; try discriminate.
      destruct (g_aggregate0_ ne _) as [g2| |] eqn:EA; cbn [bind] in E; try discriminate. injection E as _ <-.
      apply AG in EA as (new & ->). exists new. auto.
    - exists []. rewrite app_nil_r. unfold g_pop in E. destruct (g_list g) eqn:El; injection E as <- <-; simpl; rewrite ?El; auto.
    - exists []. rewrite app_nil_r. unfold g_force_pop in E. destruct (s_force_pop _ _) as [[d s1]| |]; cbn [bind] in E; try discriminate.
      destruct d as [d|]; cbn [bind] in E; [|injection E as _ <-; auto].
      destruct (g_finish _ _ _); cbn [bind] in E; try discriminate. injection E as _ <-. auto.
    - exists []. rewrite app_nil_r. destruct (g_current ne g); cbn [bind] in E; try discriminate. injection E as _ <-. auto.
    - exists []. rewrite app_nil_r. injection E as _ <-. auto.
  Qed.
  Lemma fifo_run ops : Forall gnot_clear ops -> forall g outs g', g_run ne g ops = Ok (outs, g') ->
    exists queued, g_list g ++ queued = pops ops (map out_ptr outs) ++ g_list g'.
  Proof.
    induction 1 as [|op ops HN HN' IH]; intros g outs g' E; cbn [g_run] in E; [injection E as <- <-; exists []; now rewrite app_nil_r|].
    destruct (g_call ne op g) as [[r g1]| |] eqn:Ec; cbn [bind] in E; try discriminate.
    destruct (g_run ne g1 ops) as [[os g2]| |] eqn:Er; cbn [bind] in E; try discriminate. injection E as <- <-.
    destruct (fifo_call op g r g1 Ec HN) as (n1 & E1 & _). destruct (IH g1 os g2 Er) as (n2 & E2).
    exists (n1 ++ n2). rewrite app_assoc, E1, <- app_assoc, E2. simpl. now rewrite app_assoc.
  Qed.

  Lemma current_force o c rnd ts g0 ops outs g : 0 < so_step (ao_sep o) -> agg_new o c rnd ts = Ok g0 ->
    Forall gop_typed ops -> g_run ne g0 ops = Ok (outs, g) -> s_list (g_sep g) = [] ->
    match g_current ne g, g_force_pop ne g with
    | Ok (Some a), Ok (Some b, _) => ad_info a = ad_info b
    | Ok None, Ok (None, _) => True
    | Ub, Ub => True
    | _, _ => False
    end.
  Proof.
    intros Hs E0 HT E HL. pose proof (new_asim ne o c rnd ts g0 Hs E0) as SI.
    pose proof (grun_sim ne Hne _ _ _ _ ops Hs HT g0 _ outs g SI E) as R.
    destruct (aspec_run _ _ ops _) as [os a]. destruct R as (((S1 & S2 & S3 & S4 & S5 & S6) & _) & _).
    destruct S5 as (rops & RT & RR & RW).
    pose proof (peek_same ne Hne _ rops _ RT RW) as PS.
    unfold g_current, s_get_current, g_force_pop, s_force_pop, s_pop. rewrite HL.
    destruct (r_get_reduced ne (s_red (g_sep g))) as [[x|]| |]; destruct (r_detach ne (s_red (g_sep g))) as [[[y|] r1]| |];
      cbn [bind]; try contradiction; auto.
    unfold g_set_sep. destruct (chk _) as [t| |] eqn:Ec; cbn [bind]; auto; [|unfold chk in Ec; destruct (in_i64 _); discriminate].
    destruct (finish_spec ne Hne (g_out g) (ad_set_ts t x)) as (dx & -> & Fx).
    destruct (finish_spec ne Hne (g_out g) (ad_set_ts t y)) as (dy & -> & Fy). cbn [bind].
    destruct Fx as (-> & _). destruct Fy as (-> & _). destruct PS as (P1 & P2 & P3 & P4 & P5 & P6).
    destruct x as [[? ? ? ? ? ?] ? ?], y as [[? ? ? ? ? ?] ? ?]. cbv in P1, P2, P3, P4, P5. simpl. congruence.
  Qed.
End NE2.

Section Pushers.
  Variable ne : nat -> list Z -> list Z.

  Lemma id_call op g r g' : g_call ne op g = Ok (r, g') -> g_id g' = match op with GoClear _ _ => false | _ => g_id g end.
  Proof.
    intros E.
    assert (AG : forall g1 g2, g_aggregate0_ ne g1 = Ok g2 -> g_id g2 = g_id g1).
    { intros g1 g2 E1. unfold g_aggregate0_ in E1. destruct (g_finish_all _ _ _); cbn [bind] in E1; try discriminate.
      now injection E1 as <-. }
    assert (ADD : forall f b g1, g_add_with ne f g = Ok (b, g1) -> g_id g1 = g_id g).
    { intros f b g1 E1. unfold g_add_with in E1. destruct (negb (g_enabled g)); [now injection E1 as _ <-|].
      destruct (f (g_sep g)) as [[[b1 rc] s1]| |]; cbn [bind] in E1; try discriminate.
      destruct (negb b1); [now injection E1 as _ <-|].
      destruct (g_aggregate0_ ne _) as [g2| |] eqn:EA; cbn [bind] in E1; try discriminate. injection E1 as _ <-.
      apply AG in EA. auto. }
    assert (PUSH : forall f1 f2 h b rc g1, g_push_with ne f1 f2 h g = Ok (b, rc, g1) -> g_id g1 = g_id g).
    { intros f1 f2 h b rc g1 E1. unfold g_push_with in E1. destruct (negb (g_enabled g)); [now injection E1 as _ _ <-|].
      destruct (negb h).
      - destruct (g_add_with ne f1 g) as [[b1 g2]| |] eqn:EA; cbn [bind] in E1; try discriminate. injection E1 as _ _ <-. eauto.
      - destruct (f2 (g_sep g)) as [[[b1 rc1] s1]| |]; cbn [bind] in E1; try discriminate.
        destruct (g_finish_all _ _ _); cbn [bind] in E1; try discriminate. now injection E1 as _ _ <-. }
    destruct op; simpl in E.
    - destruct x; try discriminate;
        match type of E with bind ?x _ = _ => destruct x as [[b g1]| |] eqn:EA end; cbn [bind] in E; try discriminate;
        injection E as _ <-; eapply ADD; exact EA.
    - destruct x; try discriminate;
        match type of E with bind ?x _ = _ => destruct x as [[[b rc] g1]| |] eqn:EA end; cbn [bind] in E; try discriminate;
        injection E as _ <-; eapply PUSH; exact EA.
    - unfold g_separate in E. destruct (s_separate _ _ _ _ _ _) as [[[b rc] s1]| |]; cbn [bind] in E; try discriminate.
      destruct (g_aggregate0_ ne _) as [g2| |] eqn:EA; cbn [bind] in E; try discriminate. injection E as _ <-.
      apply AG in EA. auto.
    - unfold g_pop in E. destruct (g_list g); now injection E as _ <-.
    - unfold g_force_pop in E. destruct (s_force_pop _ _) as [[d s1]| |]; cbn [bind] in E; try discriminate.
      destruct d as [d|]; cbn [bind] in E; [|now injection E as _ <-].
      destruct (g_finish _ _ _); cbn [bind] in E; try discriminate. now injection E as _ <-.
    - destruct (g_current ne g); cbn [bind] in E; try discriminate. now injection E as _ <-.
    - now injection E as _ <-.
    - unfold g_clear in E. destruct (s_clear _ _ _); cbn [bind] in E; try discriminate. now injection E as _ <-.
  Qed.
  Lemma id_run ops : forall g outs g', g_run ne g ops = Ok (outs, g') -> g_id g = false -> g_id g' = false.
  Proof.
    induction ops as [|op ops IH]; intros g outs g' E HI; cbn [g_run] in E; [now injection E as _ <-|].
    destruct (g_call ne op g) as [[r g1]| |] eqn:Ec; cbn [bind] in E; try discriminate.
    destruct (g_run ne g1 ops) as [[os g2]| |] eqn:Er; cbn [bind] in E; try discriminate. injection E as <- <-.
    eapply IH; eauto. apply id_call in Ec. rewrite Ec. destruct op; auto.
  Qed.
  Lemma id_run_true ops : Forall gnot_clear ops -> forall g outs g', g_run ne g ops = Ok (outs, g') -> g_id g' = g_id g.
  Proof.
    induction 1 as [|op ops HN HN' IH]; intros g outs g' E; cbn [g_run] in E; [now injection E as _ <-|].
    destruct (g_call ne op g) as [[r g1]| |] eqn:Ec; cbn [bind] in E; try discriminate.
    destruct (g_run ne g1 ops) as [[os g2]| |] eqn:Er; cbn [bind] in E; try discriminate. injection E as <- <-.
    rewrite (IH _ _ _ Er). apply id_call in Ec. rewrite Ec. destruct op; auto; contradiction.
  Qed.
  Lemma clear_pushers g c ts g1 ops outs g2 gx h push :
    g_clear c ts g = Ok g1 -> g_run ne g1 ops = Ok (outs, g2) ->
    g_call_pusher push (g_create_pusher h gx) g2 = Ok ([], g2).
  Proof.
    intros EC E. assert (HI : g_id g2 = false).
    { eapply id_run; eauto. unfold g_clear in EC. destruct (s_clear _ _ _); cbn [bind] in EC; try discriminate.
      now injection EC as <-. }
    unfold g_call_pusher, pusher_live. rewrite HI, andb_false_r. reflexivity.
  Qed.
  Lemma live_pusher o c rnd ts g0 ops1 outs1 g1 ops2 outs2 g2 h push : agg_new o c rnd ts = Ok g0 ->
    g_run ne g0 ops1 = Ok (outs1, g1) -> g_run ne g1 ops2 = Ok (outs2, g2) ->
    Forall gnot_clear ops1 -> Forall gnot_clear ops2 ->
    g_call_pusher push (g_create_pusher h g1) g2 = ('(_, recs, g3) <- push h g2 ;; Ok (recs, g3)).
  Proof.
    intros E0 E1 E2 N1 N2. assert (I0 : g_id g0 = true).
    { unfold agg_new in E0. destruct (sep_new _ _ _ _); cbn [bind] in E0; try discriminate. now injection E0 as <-. }
    apply id_run_true in E1; auto. apply id_run_true in E2; auto.
    unfold g_call_pusher, pusher_live, g_create_pusher. simpl. rewrite E2, E1, I0. reflexivity.
  Qed.
End Pushers.
