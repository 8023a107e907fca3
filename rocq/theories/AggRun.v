(** Histories of aggregator calls. *)
From Coq Require Import ZArith List Bool Permutation Lia Arith Sorted.
From Verif Require Import Base SortFacts ModelTypes ModelAvg ModelReducer SpecReducer ReducerProofs PubProofs
  ModelSeparator SpecSeparator SepProofs SepSpecProofs SepRun SepSafe ModelAggregator SpecAggregator AggProofs.
Import ListNotations.
Local Open Scope Z_scope.

(** Abstract aggregator: abstract separator, queue of finished groups, enabled flag. *)
Record aspec := mk_as { as_sp : spec; as_q : list group; as_en : bool }.
Definition as_drain (sp : spec) (a : aspec) : aspec :=
  mk_as (mk_spec (sp_cur sp) (sp_open sp) []) (as_q a ++ sp_queue sp) (as_en a).
Definition as_set (sp : spec) (a : aspec) : aspec := mk_as sp (as_q a) (as_en a).
Definition aspec_add (step : Z) (res : resolution) (x : sample) (c1 c2 : Z) (a : aspec) : spout * aspec :=
  if negb (as_en a) then (mk_spout (Some true) [] None, a)
  else
    let '(so, sp1) := spec_call step res (SoAdd x c1 c2) (as_sp a) in
    (so, match po_bool so with Some true => as_drain sp1 a | _ => as_set sp1 a end).
Definition aspec_call (step : Z) (res : resolution) (op : gop) (a : aspec) : spout * aspec :=
  match op with
  | GoAdd x c1 c2 => aspec_add step res x c1 c2 a
  | GoPush x h c1 c2 =>
      if negb h then aspec_add step res x c1 c2 a
      else if negb (as_en a) then (mk_spout (Some true) [] None, a)
      else let '(so, sp1) := spec_call step res (SoPush x c1 c2) (as_sp a) in (so, as_set sp1 a)
  | GoSeparate ts h f c => let '(so, sp1) := spec_call step res (SoSeparate ts h f c) (as_sp a) in (so, as_drain sp1 a)
  | GoPop =>
      match as_q a with
      | [] => (mk_spout None [] None, a)
      | g :: q => (mk_spout None [] (Some g), mk_as (as_sp a) q (as_en a))
      end
  | GoForcePop => let '(so, sp1) := spec_call step res SoForcePop (as_sp a) in (so, as_set sp1 a)
  | GoCurrent => let '(so, sp1) := spec_call step res SoPeek (as_sp a) in (so, as_set sp1 a)
  | GoEnable v => (mk_spout None [] None, mk_as (as_sp a) (as_q a) v)
  | GoClear ts c => let '(so, sp1) := spec_call step res (SoClear ts c) (as_sp a) in (so, mk_as sp1 [] (as_en a))
  end.
Fixpoint aspec_run (step : Z) (res : resolution) (ops : list gop) (a : aspec) : list spout * aspec :=
  match ops with
  | [] => ([], a)
  | op :: t => let '(o, a1) := aspec_call step res op a in let '(os, a2) := aspec_run step res t a1 in (o :: os, a2)
  end.

Section NE.
  Variable ne : nat -> list Z -> list Z.
  Hypothesis Hne : nth_element_ok ne.
  Notation rel := (rel ne).
  Notation Sim := (Sim ne).
  Definition drel (o : ropts) (out : nat) (q : group) (d : adata) : Prop := delivery_of ne o out (fst q) (snd q) d.

  Lemma drel_all o out l recs ds : Forall2 (rel o) l recs -> Forall2 (finished out) recs ds -> Forall2 (drel o out) l ds.
  Proof.
    intros F. revert ds. induction F; intros ds G; inversion G; subst; constructor; auto. exists y. auto.
  Qed.

  Definition ASim (o : ropts) (out : nat) (step : Z) (res : resolution) (g : agg) (a : aspec) : Prop :=
    Sim o step res (g_sep g) (as_sp a) /\ Forall2 (drel o out) (as_q a) (g_list g) /\
    g_enabled g = as_en a /\ g_out g = out.

  Definition gout_rel (o : ropts) (out : nat) (op : gop) (so : spout) (r : sout) : Prop :=
    po_bool so = out_bool r /\
    Forall2 (match op with GoSeparate _ _ _ _ => rel o | _ => drel o out end) (po_handler so) (out_handler r) /\
    match po_ptr so, out_ptr r with
    | None, None => True
    | Some q, Some d =>
        match op with
        | GoCurrent => exists a b, rel o q b /\ same_summary a b /\ ad_ts a = fst q /\ finished out a d
        | _ => drel o out q d
        end
    | _, _ => False
    end.

  Definition sadd_of (x : sample) (c1 c2 : Z) : sep -> outcome (bool * list adata * sep) :=
    match x with
    | SmScalar ts v c => s_add ne c1 c2 ts v c
    | SmArr ts vs c => s_add_arr ne c1 c2 ts vs c
    | SmList _ _ => fun _ => Exn
    | SmRed d => s_add_red ne c1 c2 d
    end.
  Definition spush_of (x : sample) (c1 c2 : Z) : sep -> outcome (bool * list adata * sep) :=
    match x with
    | SmScalar ts v c => s_push ne c1 c2 ts v c true
    | SmArr ts vs c => s_push_arr ne c1 c2 ts vs c true
    | SmList _ _ => fun _ => Exn
    | SmRed d => s_push_red ne c1 c2 d true
    end.
  Definition not_list (x : sample) : Prop := match x with SmList _ _ => False | _ => True end.

  Lemma call_add x c1 c2 g : not_list x -> g_call ne (GoAdd x c1 c2) g =
    ('(b, g') <- g_add_with ne (sadd_of x c1 c2) g ;; Ok (mk_sout (Some b) [] None, g')).
  Proof. destruct x; simpl; intros H; try contradiction; reflexivity. Qed.
  Lemma call_push x h c1 c2 g : not_list x -> g_call ne (GoPush x h c1 c2) g =
    ('(b, recs, g') <- g_push_with ne (sadd_of x c1 c2) (spush_of x c1 c2) h g ;; Ok (mk_sout (Some b) recs None, g')).
  Proof. destruct x; simpl; intros H; try contradiction; reflexivity. Qed.
  Lemma s_call_add x c1 c2 s : not_list x -> s_call ne (SoAdd x c1 c2) s =
    ('(b, recs, s') <- sadd_of x c1 c2 s ;; Ok (mk_sout (Some b) recs None, s')).
  Proof. destruct x; simpl; intros H; try contradiction; reflexivity. Qed.
  Lemma s_call_push x c1 c2 s : not_list x -> s_call ne (SoPush x c1 c2) s =
    ('(b, recs, s') <- spush_of x c1 c2 s ;; Ok (mk_sout (Some b) recs None, s')).
  Proof. destruct x; simpl; intros H; try contradiction; reflexivity. Qed.

  Lemma aggregate0_sim o out step res g sp q en g' :
    Sim o step res (g_sep g) sp -> Forall2 (drel o out) q (g_list g) -> g_enabled g = en -> g_out g = out ->
    g_aggregate0_ ne g = Ok g' ->
    ASim o out step res g' (mk_as (mk_spec (sp_cur sp) (sp_open sp) []) (q ++ sp_queue sp) en).
  Proof.
    intros (S1 & S2 & S3 & S4 & S5 & S6) Q EN OU E. unfold g_aggregate0_ in E.
    destruct (g_finish_all ne (g_out g) (s_list (g_sep g))) as [ds| |] eqn:EF; cbn [bind] in E; try discriminate.
    injection E as <-. apply (finish_all_fun ne Hne) in EF. split; [|split; [|split]]; simpl; auto.
    - apply Sim_intro; simpl; auto.
    - apply Forall2_app; auto. rewrite OU in EF. eapply drel_all; eauto.
  Qed.

  Lemma add_sim o out step res g a x c1 c2 b g' : 0 < step -> ASim o out step res g a -> op_typed (sm_op x) -> not_list x ->
    g_add_with ne (sadd_of x c1 c2) g = Ok (b, g') ->
    let '(so, a1) := aspec_add step res x c1 c2 a in
    po_bool so = Some b /\ po_handler so = [] /\ po_ptr so = None /\ ASim o out step res g' a1.
  Proof.
    intros Hs (SI & Q & EN & OU) HT HL E. unfold g_add_with in E. unfold aspec_add. rewrite EN in E.
    destruct (as_en a) eqn:Ee; simpl negb in *; cbv iota in *.
    2: { injection E as <- <-. simpl. unfold ASim. rewrite Ee. auto 10. }
    destruct (sadd_of x c1 c2 (g_sep g)) as [[[b1 rc] s1]| |] eqn:Es; cbn [bind] in E; try discriminate.
    pose proof (s_call_add x c1 c2 (g_sep g) HL) as EC. rewrite Es in EC. cbn [bind] in EC.
    pose proof (call_sim ne Hne o step res (g_sep g) (as_sp a) (SoAdd x c1 c2) _ s1 Hs SI HT EC) as C.
    destruct (spec_call step res (SoAdd x c1 c2) (as_sp a)) as [so sp1] eqn:Esp. destruct C as ((C1 & C2 & C3) & C4).
    simpl in C1, C2, C3.
    assert (PH : po_handler so = []).
    { simpl in Esp. unfold spec_put in Esp. destruct (spec_deliver false _) as [u v] eqn:Ed.
      unfold spec_deliver in Ed. injection Ed as <- _. destruct (_ <? _); injection Esp as <- _; reflexivity. }
    assert (PP : po_ptr so = None) by (destruct (po_ptr so); [contradiction|auto]).
    rewrite C1. destruct b1; simpl negb in E; cbv iota in E.
    - destruct (g_aggregate0_ ne (g_set_sep s1 g)) as [g1| |] eqn:EA; cbn [bind] in E; try discriminate.
      injection E as <- <-. split; auto. split; auto. split; auto. unfold as_drain. rewrite Ee.
      eapply aggregate0_sim; [| | | |exact EA]; simpl; auto.
    - injection E as <- <-. split; auto. split; auto. split; auto. split; [exact C4|]. simpl. rewrite Ee. auto.
  Qed.

  Lemma gcall_sim o out step res g a op r g' : 0 < step -> ASim o out step res g a -> gop_typed op ->
    g_call ne op g = Ok (r, g') ->
    let '(so, a1) := aspec_call step res op a in gout_rel o out op so r /\ ASim o out step res g' a1.
  Proof.
    intros Hs AS HT E. assert (AS' := AS). destruct AS' as (SI & Q & EN & OU). destruct op.
    - (* add *)
      destruct HT as [HT HL]. rewrite call_add in E by auto.
      destruct (g_add_with ne (sadd_of x c1 c2) g) as [[b g1]| |] eqn:Ea; cbn [bind] in E; try discriminate.
      injection E as <- <-. pose proof (add_sim o out step res g a x c1 c2 b g1 Hs AS HT HL Ea) as A. simpl.
      destruct (aspec_add step res x c1 c2 a) as [so a1]. destruct A as (A1 & A2 & A3 & A4). split; auto.
      unfold gout_rel. rewrite A1, A2, A3. simpl. auto.
    - (* push *)
      destruct HT as [HT HL]. rewrite call_push in E by auto. unfold g_push_with in E. simpl.
      destruct h; simpl negb in *; cbv iota in *.
      + rewrite EN in E. destruct (as_en a) eqn:Ee; simpl negb in *; cbv iota in *.
        2: { cbn [bind] in E. injection E as <- <-. split; [|exact AS]. unfold gout_rel. simpl. auto. }
        destruct (spush_of x c1 c2 (g_sep g)) as [[[b1 rc] s1]| |] eqn:Es; cbn [bind] in E; try discriminate.
        destruct (g_finish_all ne (g_out g) rc) as [ds| |] eqn:EF; cbn [bind] in E; try discriminate.
        injection E as <- <-. apply (finish_all_fun ne Hne) in EF. rewrite OU in EF.
        pose proof (s_call_push x c1 c2 (g_sep g) HL) as EC. rewrite Es in EC. cbn [bind] in EC.
        pose proof (call_sim ne Hne o step res (g_sep g) (as_sp a) (SoPush x c1 c2) _ s1 Hs SI (conj HT HL) EC) as C.
        simpl in C. destruct (spec_put _ _ _ _ _ _) as [so sp1]. destruct C as ((C1 & C2 & C3) & C4).
        simpl in C1, C2, C3. split.
        * unfold gout_rel. simpl. split; auto. split; [eapply drel_all; eauto|].
          destruct (po_ptr so); auto.
        * split; [exact C4|]. simpl. rewrite Ee. auto.
      + assert (E' : exists b g1, g_add_with ne (sadd_of x c1 c2) g = Ok (b, g1) /\ r = mk_sout (Some b) [] None /\ g' = g1).
        { destruct (g_enabled g) eqn:Eg; simpl negb in E; cbv iota in E.
          - destruct (g_add_with ne (sadd_of x c1 c2) g) as [[b g1]| |]; cbn [bind] in E; try discriminate.
            injection E as <- <-. eauto.
          - cbn [bind] in E. injection E as <- <-. exists true, g. unfold g_add_with. rewrite Eg. auto. }
        destruct E' as (b & g1 & Ea & -> & ->).
        pose proof (add_sim o out step res g a x c1 c2 b g1 Hs AS HT HL Ea) as A.
        destruct (aspec_add step res x c1 c2 a) as [so a1]. destruct A as (A1 & A2 & A3 & A4). split; auto.
        unfold gout_rel. rewrite A1, A2, A3. simpl. auto.
    - (* separate *)
      simpl in E. unfold g_separate in E.
      destruct (s_separate ne c ts h force (g_sep g)) as [[[b rc] s1]| |] eqn:Es; cbn [bind] in E; try discriminate.
      destruct (g_aggregate0_ ne (g_set_sep s1 g)) as [g1| |] eqn:EA; cbn [bind] in E; try discriminate.
      injection E as <- <-.
      assert (EC : s_call ne (SoSeparate ts h force c) (g_sep g) = Ok (mk_sout (Some b) rc None, s1)) by (simpl; now rewrite Es).
      pose proof (call_sim ne Hne o step res (g_sep g) (as_sp a) (SoSeparate ts h force c) _ s1 Hs SI I EC) as C.
      unfold aspec_call. destruct (spec_call step res (SoSeparate ts h force c) (as_sp a)) as [so sp1].
      destruct C as ((C1 & C2 & C3) & C4). simpl in C1, C2, C3. split; [unfold gout_rel; auto|].
      unfold as_drain. eapply aggregate0_sim; [| | | |exact EA]; simpl; auto.
    - (* pop *)
      simpl in E. unfold g_pop in E. simpl.
      destruct (g_list g) as [|d l] eqn:El, (as_q a) as [|q0 q] eqn:Eq; try (inversion Q; fail).
      + injection E as <- <-. split; [unfold gout_rel; simpl; auto|]. exact AS.
      + injection E as <- <-. inversion Q; subst. split; [unfold gout_rel; simpl; auto|].
        split; [exact SI|]. simpl. auto.
    - (* force_pop *)
      simpl in E. unfold g_force_pop in E.
      destruct (s_force_pop ne (g_sep g)) as [[d s1]| |] eqn:Es; cbn [bind] in E; try discriminate.
      assert (EC : s_call ne SoForcePop (g_sep g) = Ok (mk_sout None [] d, s1)) by (simpl; now rewrite Es).
      pose proof (call_sim ne Hne o step res (g_sep g) (as_sp a) SoForcePop _ s1 Hs SI I EC) as C.
      unfold aspec_call. destruct (spec_call step res SoForcePop (as_sp a)) as [so sp1].
      destruct C as ((C1 & C2 & C3) & C4). simpl in C1, C2, C3.
      assert (PH : po_handler so = []) by (inversion C2; auto).
      destruct d as [d|].
      + destruct (g_finish ne (g_out g) d) as [d'| |] eqn:EF; cbn [bind] in E; try discriminate.
        injection E as <- <-. apply (finish_fun ne Hne) in EF. rewrite OU in EF.
        destruct (po_ptr so) as [q|] eqn:Ep; [|contradiction]. split.
        * unfold gout_rel. rewrite PH, Ep. simpl. split; auto. split; [constructor|]. exists d. auto.
        * split; [exact C4|]. simpl. auto.
      + cbn [bind] in E. injection E as <- <-. destruct (po_ptr so) eqn:Ep; [contradiction|]. split.
        * unfold gout_rel. rewrite PH, Ep. simpl. auto.
        * split; [exact C4|]. simpl. auto.
    - (* current *)
      simpl in E. unfold g_current in E.
      destruct (s_get_current ne (g_sep g)) as [d| |] eqn:Es; cbn [bind] in E; try discriminate.
      assert (EC : s_call ne SoPeek (g_sep g) = Ok (mk_sout None [] d, g_sep g)) by (simpl; now rewrite Es).
      pose proof (call_sim ne Hne o step res (g_sep g) (as_sp a) SoPeek _ _ Hs SI I EC) as C.
      unfold aspec_call. destruct (spec_call step res SoPeek (as_sp a)) as [so sp1].
      destruct C as ((C1 & C2 & C3) & C4). simpl in C1, C2, C3.
      assert (PH : po_handler so = []) by (inversion C2; auto).
      destruct d as [d|].
      + destruct (g_finish ne (g_out g) d) as [d'| |] eqn:EF; cbn [bind] in E; try discriminate.
        injection E as <- <-. apply (finish_fun ne Hne) in EF. rewrite OU in EF.
        destruct (po_ptr so) as [q|] eqn:Ep; [|contradiction]. split.
        * unfold gout_rel. rewrite PH, Ep. simpl. split; auto. split; [constructor|].
          destruct C3 as (b & R1 & R2 & R3). exists d, b. auto.
        * split; [exact C4|]. simpl. auto.
      + cbn [bind] in E. injection E as <- <-. destruct (po_ptr so) eqn:Ep; [contradiction|]. split.
        * unfold gout_rel. rewrite PH, Ep. simpl. auto.
        * split; [exact C4|]. simpl. auto.
    - (* enable *)
      simpl in E. injection E as <- <-. simpl. split; [unfold gout_rel; simpl; auto|].
      split; [exact SI|]. simpl. auto.
    - (* clear *)
      simpl in E. unfold g_clear in E.
      destruct (s_clear c ts (g_sep g)) as [s1| |] eqn:Es; cbn [bind] in E; try discriminate.
      injection E as <- <-.
      assert (EC : s_call ne (SoClear ts c) (g_sep g) = Ok (mk_sout None [] None, s1)) by (simpl; now rewrite Es).
      pose proof (call_sim ne Hne o step res (g_sep g) (as_sp a) (SoClear ts c) _ s1 Hs SI I EC) as C.
      simpl in C |- *. destruct C as (_ & C4). split; [unfold gout_rel; simpl; auto|].
      split; [exact C4|]. simpl. auto.
  Qed.

  Lemma grun_sim o out step res ops : 0 < step -> Forall gop_typed ops -> forall g a rs g',
    ASim o out step res g a -> g_run ne g ops = Ok (rs, g') ->
    let '(os, a') := aspec_run step res ops a in
    ASim o out step res g' a' /\ Forall2 (fun op p => gout_rel o out op (fst p) (snd p)) ops (combine os rs) /\
    length os = length ops /\ length rs = length ops.
  Proof.
    intros Hs. induction ops as [|op ops IH]; intros HT g a rs g' AS E; simpl in E.
    - injection E as <- <-. simpl. auto.
    - destruct (g_call ne op g) as [[r1 g1]| |] eqn:E1; cbn [bind] in E; try discriminate.
      destruct (g_run ne g1 ops) as [[rs2 g2]| |] eqn:E2; cbn [bind] in E; try discriminate.
      injection E as <- <-.
      pose proof (gcall_sim o out step res g a op r1 g1 Hs AS (Forall_inv HT) E1) as C.
      simpl aspec_run. destruct (aspec_call step res op a) as [so a1]. destruct C as [C1 C2].
      specialize (IH (Forall_inv_tail HT) g1 a1 rs2 g2 C2 E2).
      destruct (aspec_run step res ops a1) as [os a2]. destruct IH as (I1 & I2 & I3 & I4).
      split; auto. split; [simpl; constructor; auto|]. simpl. auto.
  Qed.

  (** Weaker relation that covers every path. *)
  Definition wrel (o : ropts) (q : group) (d : adata) : Prop := reported_as ne o (fst q) (snd q) d.
  Lemma rel_w o q d : rel o q d -> wrel o q d.
  Proof. intros H. exists d. split; auto. split; auto. exists []. now rewrite app_nil_r. Qed.
  Lemma drel_w o out q d : drel o out q d -> wrel o q d.
  Proof. intros (a & H & F). exists a. split; auto. split; [apply F|now apply (finished_sub out)]. Qed.
  Lemma Forall2_impl {A B} (R S : A -> B -> Prop) l m : (forall x y, R x y -> S x y) -> Forall2 R l m -> Forall2 S l m.
  Proof. intros H. induction 1; auto. Qed.

  Lemma grun_sim_w o out step res ops : 0 < step -> Forall gop_typed ops -> forall g a rs g',
    ASim o out step res g a -> g_run ne g ops = Ok (rs, g') ->
    let '(os, a') := aspec_run step res ops a in
    ASim o out step res g' a' /\ map po_bool os = map out_bool rs /\
    Forall2 (wrel o) (flat_map po_handler os) (flat_map out_handler rs) /\
    Forall2 (drel o out) (gpopped ops (map po_ptr os)) (gpopped ops (map out_ptr rs)).
  Proof.
    intros Hs HT g a rs g' AS E. pose proof (grun_sim o out step res ops Hs HT g a rs g' AS E) as R.
    destruct (aspec_run step res ops a) as [os a']. destruct R as (R1 & R2 & L1 & L2). split; auto.
    clear - R2 L1 L2. revert os rs L1 L2 R2.
    induction ops as [|op ops IH]; intros [|so os] [|r rs] L1 L2 R2; try discriminate; simpl; auto.
    simpl in R2. inversion R2 as [|? ? ? ? H F]; subst. simpl in H. destruct H as (H1 & H2 & H3).
    injection L1 as L1. injection L2 as L2. destruct (IH os rs L1 L2 F) as (I1 & I2 & I3).
    split; [congruence|]. split.
    - apply Forall2_app; auto. destruct op; eapply Forall2_impl; try exact H2; intros;
        solve [now apply rel_w | eapply drel_w; eauto].
    - apply Forall2_app; auto. destruct op; auto; destruct (po_ptr so), (out_ptr r); try contradiction; auto.
  Qed.

  Lemma new_asim o c rnd ts g : 0 < so_step (ao_sep o) -> agg_new o c rnd ts = Ok g ->
    ASim (so_red (ao_sep o)) (ao_out o) (so_step (ao_sep o)) (so_res (ao_sep o)) g
      (mk_as (mk_spec (agg_label g) [] []) [] true).
  Proof.
    intros Hs E. unfold agg_new in E. destruct (sep_new (ao_sep o) c rnd ts) as [s| |] eqn:Es; cbn [bind] in E; try discriminate.
    injection E as <-. destruct (new_sim ne (ao_sep o) c rnd ts s Hs Es) as (SI & _).
    split; [exact SI|]. simpl. auto.
  Qed.

  Lemma idle_asim o g : 0 < so_step (ao_sep o) -> g_idle ne o g ->
    ASim (so_red (ao_sep o)) (ao_out o) (so_step (ao_sep o)) (so_res (ao_sep o)) g
      (mk_as (mk_spec (agg_label g) [] []) [] (g_enabled g)).
  Proof.
    intros Hs (c & rnd & ts & g0 & ops & outs & E0 & HT & E & HL & HL2 & HG).
    pose proof (new_asim o c rnd ts g0 Hs E0) as SI.
    pose proof (grun_sim _ _ _ _ ops Hs HT g0 _ outs g SI E) as R.
    destruct (aspec_run _ _ ops _) as [os a]. destruct R as (((S1 & S2 & S3 & S4 & S5 & S6) & Q & EN & OU) & _).
    unfold g_current in HG. destruct (s_get_current ne (g_sep g)) as [p| |] eqn:Ep; cbn [bind] in HG; try discriminate.
    assert (p = None) as ->.
    { destruct p as [x|]; auto. destruct (g_finish ne (g_out g) x); discriminate. }
    pose proof (open_peek ne Hne _ _ _ _ _ S5 eq_refl Ep) as G. simpl in G. rewrite G in S5. rewrite HL in Q.
    split; [|split; [|split]]; simpl; auto.
    - apply Sim_intro; simpl; auto.
      + unfold agg_label, sep_label. lia.
      + rewrite HL2. constructor.
    - rewrite HL. constructor.
  Qed.
  Lemma gnew_idle o c rnd ts g : 0 < so_step (ao_sep o) -> agg_new o c rnd ts = Ok g -> g_idle ne o g.
  Proof.
    intros Hs E. exists c, rnd, ts, g, [], []. split; auto. split; [constructor|]. split; [reflexivity|].
    unfold agg_new in E. destruct (sep_new (ao_sep o) c rnd ts) as [s| |] eqn:Es; cbn [bind] in E; try discriminate.
    injection E as <-. simpl. split; auto.
    destruct (new_idle ne (ao_sep o) c rnd ts s Hs Es) as (c' & rnd' & ts' & s0 & ops & outs & _).
    unfold sep_new in Es. destruct (get_ts _ _ _ _); cbn [bind] in Es; try discriminate.
    destruct (if negb (so_soiled (ao_sep o) =? 0) then _ else _); cbn [bind] in Es; try discriminate.
    destruct (chk _); cbn [bind] in Es; try discriminate. injection Es as <-. split; reflexivity.
  Qed.

  (** * Grouping under coherent times *)
  Definition merged (a : aspec) : spec := mk_spec (sp_cur (as_sp a)) (sp_open (as_sp a)) (as_q a).

  Lemma advance_queue step t h c o q q' : let '(out, sp1) := spec_deliver h (spec_advance step t (mk_spec c o q)) in
    spec_deliver h (spec_advance step t (mk_spec c o (q' ++ q))) = (out, mk_spec (sp_cur sp1) (sp_open sp1) (q' ++ sp_queue sp1)).
  Proof.
    unfold spec_advance, spec_deliver. simpl. destruct (t <? c + step), h; simpl; rewrite ?app_nil_r, ?app_assoc; auto.
  Qed.
  Lemma put_queue step t t' h x c o q q' : let '(so, sp1) := spec_put step t t' h x (mk_spec c o q) in
    spec_put step t t' h x (mk_spec c o (q' ++ q)) = (so, mk_spec (sp_cur sp1) (sp_open sp1) (q' ++ sp_queue sp1)).
  Proof.
    unfold spec_put. pose proof (advance_queue step t h c o q q') as A.
    destruct (spec_deliver h (spec_advance step t (mk_spec c o q))) as [out sp1]. rewrite A. simpl.
    destruct (t' <? sp_cur sp1); simpl; auto.
  Qed.
  Lemma put_false_queue step t x c o so sp1 : 0 < step -> spec_put step t t false x (mk_spec c o []) = (so, sp1) ->
    po_bool so <> Some true -> sp_queue sp1 = [].
  Proof.
    intros Hs E N. unfold spec_put, spec_advance in E. simpl in E. destruct (Z.ltb_spec t (c + step)) as [L|L]; simpl in E.
    - destruct (t <? c); injection E as <- <-; auto.
    - pose proof (window_of_spec c step t Hs). rewrite (proj2 (Z.ltb_ge t _)) in E by lia.
      injection E as <- <-. now contradict N.
  Qed.

  Lemma merged_call step res op a : 0 < step -> gregular op -> gcoherent step res op -> sp_queue (as_sp a) = [] ->
    let '(so, a1) := aspec_call step res op a in
    sp_queue (as_sp a1) = [] /\ as_en a1 = en_after op (as_en a) /\
    match op with
    | GoAdd x c1 c2 =>
        if as_en a then spec_call step res (SoAdd x c1 c2) (merged a) = (so, merged a1) else so = mk_spout (Some true) [] None /\ a1 = a
    | GoPush x h c1 c2 =>
        if as_en a then spec_call step res (if h then SoPush x c1 c2 else SoAdd x c1 c2) (merged a) = (so, merged a1)
        else so = mk_spout (Some true) [] None /\ a1 = a
    | GoSeparate ts h f c => spec_call step res (SoSeparate ts h f c) (merged a) = (so, merged a1)
    | GoPop => spec_call step res SoPop (merged a) = (so, merged a1)
    | GoCurrent => spec_call step res SoPeek (merged a) = (so, merged a1)
    | _ => so = mk_spout None [] None /\ merged a1 = merged a
    end.
  Proof.
    intros Hs HR HC HQ.
    assert (AS : as_sp a = mk_spec (sp_cur (as_sp a)) (sp_open (as_sp a)) []) by (destruct (as_sp a); simpl in *; now subst).
    assert (ADD : forall x c1 c2, adv_time step res c1 c2 (sm_ts x) = acc_time step res c1 (sm_ts x) ->
      let '(so, a1) := aspec_add step res x c1 c2 a in
      sp_queue (as_sp a1) = [] /\ as_en a1 = as_en a /\
      if as_en a then spec_call step res (SoAdd x c1 c2) (merged a) = (so, merged a1) else so = mk_spout (Some true) [] None /\ a1 = a).
    { intros x c1 c2 H. unfold aspec_add. destruct (as_en a) eqn:Ee; simpl; [|auto].
      rewrite H, AS. unfold merged.
      pose proof (put_queue step (acc_time step res c1 (sm_ts x)) (acc_time step res c1 (sm_ts x)) false (sm_op x)
                    (sp_cur (as_sp a)) (sp_open (as_sp a)) [] (as_q a)) as P. rewrite app_nil_r in P.
      destruct (spec_put _ _ _ _ _ (mk_spec _ _ [])) as [so sp1] eqn:E.
      destruct (po_bool so) as [[|]|] eqn:Eb; simpl.
      - auto.
      - rewrite (put_false_queue _ _ _ _ _ _ _ Hs E) in * by congruence. rewrite app_nil_r in P. split; auto.
      - rewrite (put_false_queue _ _ _ _ _ _ _ Hs E) in * by congruence. rewrite app_nil_r in P. split; auto. }
    destruct op; simpl in HR, HC; try contradiction; simpl aspec_call; simpl en_after.
    - exact (ADD x c1 c2 HC).
    - destruct h; simpl negb; cbv iota; [|exact (ADD x c1 c2 HC)].
      destruct (as_en a) eqn:Ee; simpl; [|auto]. rewrite HC, AS. unfold merged.
      pose proof (put_queue step (acc_time step res c1 (sm_ts x)) (acc_time step res c1 (sm_ts x)) true (sm_op x)
                    (sp_cur (as_sp a)) (sp_open (as_sp a)) [] (as_q a)) as P. rewrite app_nil_r in P.
      destruct (spec_put _ _ _ _ _ (mk_spec _ _ [])) as [so sp1] eqn:E. simpl.
      assert (Q : sp_queue sp1 = []).
      { unfold spec_put, spec_advance in E. simpl in E. destruct (_ <? _ + step); simpl in E; destruct (_ <? _);
          injection E as <- <-; auto. }
      rewrite Q, app_nil_r in P. auto.
    - rewrite AS. unfold merged.
      pose proof (advance_queue step (acc_time step res c ts) h (sp_cur (as_sp a)) (sp_open (as_sp a)) [] (as_q a)) as P.
      rewrite app_nil_r in P. simpl in P |- *.
      destruct (spec_deliver h (spec_advance _ _ (mk_spec _ _ []))) as [out sp1] eqn:E. simpl. rewrite P.
      split; auto.
    - destruct (as_q a) as [|q0 q] eqn:Eq; simpl; rewrite Eq; simpl; auto.
    - rewrite AS. simpl. auto.
    - simpl. auto 10.
  Qed.
End NE.
