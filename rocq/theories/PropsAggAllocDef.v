(** C94: running out of memory makes no call of an aggregator undefined. *)
From Coq Require Import ZArith List Bool Lia Arith.
From Verif Require Import Base ModelTypes ModelReducer SpecReducer ModelSeparator SpecSeparator ModelAggregator SpecAggregator
  ModelAlloc SpecAlloc ModelAggAlloc SpecAggAlloc SortFacts AggRun ThrowProofs AggAllocProofs PropsReducer PropsAggregator PropsAggAlloc.
Import ListNotations.
Local Open Scope Z_scope.

Section T.
  Variable ne : nat -> list Z -> list Z.
  Lemma loop_def fd fq fuel : forall step ts next r q, sep_loop ne fuel step ts next r = Ok q -> exists q', sep_loop_f ne fd fq fuel step ts next r = Ok q'.
  Proof.
    induction fuel as [|fuel IH]; intros step ts next r q E; cbn [sep_loop sep_loop_f] in *; destruct (next <=? ts); try discriminate; eauto.
    destruct (fd && negb (r_empty r)); [eauto|]. destruct (r_detach ne r) as [[[x|] r1]| |]; cbn [bind] in *; try discriminate.
    - destruct (chk (next - step)) as [t| |]; cbn [bind] in *; try discriminate. cbv zeta in *. destruct fq; [eauto|].
      destruct (chk (next + step)) as [n1| |]; cbn [bind] in *; try discriminate.
      destruct (sep_loop ne fuel step ts n1 r1) as [q1| |] eqn:E1; cbn [bind] in E; try discriminate.
      destruct (IH _ _ _ _ _ E1) as [[[[a b] c] d] ->]. cbn [bind]. eauto.
    - destruct (chk (next + step)) as [n1| |]; cbn [bind] in *; try discriminate.
      destruct (sep_loop ne fuel step ts n1 r1) as [q1| |] eqn:E1; cbn [bind] in E; try discriminate. eauto.
  Qed.
  Lemma separate_def fd fq c ts h force s q : s_separate ne c ts h force s = Ok q ->
    exists b recs lost s1, s_separate_f ne fd fq c ts h force s = Ok (b, recs, lost, s1).
  Proof.
    unfold s_separate, s_separate_f. destruct (get_ts _ _ _ _) as [t| |]; cbn [bind]; try discriminate. destruct (_ && _); [eauto 6|].
    destruct (sep_loop ne _ _ _ _ _) as [q1| |] eqn:E1; cbn [bind]; try discriminate. intros _.
    destruct (loop_def fd fq _ _ _ _ _ _ E1) as [[[[a b] c'] d] ->]. cbn [bind]. eauto 6.
  Qed.
  Lemma sound_def x f r : not_list x -> exists e s, f_sound ne (sm_op x) f r = Ok (e, s).
  Proof.
    intros NL. assert (P : exists e s, f_plain ne (sm_op x) r = Ok (e, s)) by (destruct x; cbn [not_list] in NL; try contradiction; cbn; eauto).
    destruct f as [[i k| |]|]; [|destruct x; exact P|destruct x; exact P|destruct x; exact P].
    unfold f_sound. destruct (is_add _); [|exact P]. destruct (r_add_all_fail _ _ _ _); eauto.
  Qed.
  Lemma put_def f c1 c2 ts h x s b recs s1 : not_list x -> s_put ne c1 c2 ts h (addf_of x) s = Ok (b, recs, s1) ->
    exists b' recs' lost s1', s_put_f ne f c1 c2 ts h (sm_op x) s = Ok (b', recs', lost, s1') /\ (recs' = [] \/ recs' = recs).
  Proof.
    intros NL. unfold s_put, s_put_f. destruct (get_ts _ _ _ _) as [t| |]; cbn [bind]; try discriminate.
    destruct (s_separate ne c2 t h false s) as [[[b1 rc] s2]| |] eqn:Es; cbn [bind]; try discriminate.
    destruct (separate_def (at_detach f) (at_queue f) _ _ _ _ _ _ Es) as (b' & rc' & lo & s2' & E'). rewrite E'. cbn [bind]. destruct b' as [b'|].
    - destruct (separate_some _ _ _ _ _ _ _ _ _ _ _ _ E') as [-> E2]. rewrite Es in E2. injection E2 as -> -> ->.
      destruct (chk _) as [cur| |]; cbn [bind]; try discriminate. destruct (t <? cur).
      + intros E; injection E as <- <- <-. do 4 eexists. split; [reflexivity|auto].
      + intros E; injection E as _ <- _. destruct (sound_def x (at_value f) (s_red s2') NL) as (e & w & ->). cbn [bind].
        do 4 eexists. split; [reflexivity|auto].
    - intros _. destruct (separate_none _ _ _ _ _ _ _ _ _ _ _ E') as [-> _]. do 4 eexists. split; [reflexivity|auto].
  Qed.
  Lemma finish_app out l m ds : g_finish_all ne out (l ++ m) = Ok ds -> exists d1 d2, g_finish_all ne out l = Ok d1 /\ g_finish_all ne out m = Ok d2.
  Proof.
    revert ds. induction l as [|a l IH]; intros ds E; cbn [app g_finish_all] in *; [eauto|].
    destruct (g_finish ne out a) as [d| |]; cbn [bind] in *; try discriminate.
    destruct (g_finish_all ne out (l ++ m)) as [d0| |]; cbn [bind] in *; try discriminate.
    destruct (IH _ eq_refl) as (d1 & d2 & -> & ->). cbn [bind]. eauto.
  Qed.
  Lemma aggregate0_def n g g1 : g_aggregate0_ ne g = Ok g1 -> exists e g2, g_aggregate0_f ne n g = Ok (e, g2).
  Proof.
    intros E. assert (P : exists e g2, (g3 <- g_aggregate0_ ne g ;; Ok (@None (list adata), g3)) = Ok (e, g2)) by (rewrite E; cbn [bind]; eauto).
    unfold g_aggregate0_f. cbv zeta. destruct n as [n|]; [destruct (nth_error (s_list (g_sep g)) n) as [a|] eqn:En|]; try exact P.
    clear P. unfold g_aggregate0_ in E. destruct (g_finish_all ne (g_out g) (s_list (g_sep g))) as [ds| |] eqn:Ef; cbn [bind] in E; try discriminate.
    apply nth_error_split in En as (l1 & l2 & El & <-). rewrite El in Ef |- *.
    destruct (finish_app _ _ _ _ Ef) as (d1 & d2 & E1 & E2). rewrite firstn_app, Nat.sub_diag, firstn_all, app_nil_r, E1. cbn [bind].
    cbn [g_finish_all] in E2. destruct (g_finish ne (g_out g) a) as [d| |]; cbn [bind] in *; try discriminate. eauto.
  Qed.
  Lemma add_def f c1 c2 x g b g1 : not_list x -> g_add_with ne (s_put ne c1 c2 (sm_ts x) false (addf_of x)) g = Ok (b, g1) ->
    exists e g2, g_add_f ne f c1 c2 (sm_ts x) (sm_op x) g = Ok (e, g2).
  Proof.
    intros NL. unfold g_add_with, g_add_f. destruct (negb (g_enabled g)); [eauto|].
    destruct (s_put ne c1 c2 (sm_ts x) false (addf_of x) (g_sep g)) as [[[b1 rc] s1]| |] eqn:Ep; cbn [bind]; try discriminate.
    destruct (put_def f _ _ _ _ _ _ _ _ _ NL Ep) as (b' & rc' & lo & s1' & E' & _). rewrite E'. cbn [bind]. destruct b' as [b'|]; [|eauto].
    destruct (put_some _ _ _ _ _ _ _ _ _ _ _ _ E') as (_ & E2 & _). rewrite Ep in E2. injection E2 as -> _ ->.
    destruct b'; cbn [negb]; [|eauto]. destruct (g_aggregate0_ ne _) as [g3| |] eqn:E0; cbn [bind]; try discriminate. intros _.
    destruct (aggregate0_def (at_ag f) _ _ E0) as (e & g2 & ->). cbn [bind]. eauto.
  Qed.
End T.

(** Whatever allocation fails in a call: if the call is well defined when memory suffices, it is well defined now - it returns or throws bad_alloc.
    Neither the value lists the model of the failing calls has no failure points for, nor any limit on the state. *)
Theorem C94_defined : forall ne op f g o g1,
  match op with GoAdd (SmList _ _) _ _ | GoPush (SmList _ _) _ _ _ => False | _ => True end ->
  g_call ne op g = Ok (o, g1) -> exists e g2, gf_call ne op f g = Ok (e, g2).
Proof.
  intros ne op f g o g1 NL E. destruct op as [x c1 c2|x h c1 c2|ts h force c| | | |v|ts c]; cbn [gf_call].
  - assert (NX : not_list x) by (destruct x; try exact I; contradiction).
    assert (H : exists b g2, g_add_with ne (s_put ne c1 c2 (sm_ts x) false (addf_of x)) g = Ok (b, g2)).
    { destruct x; try contradiction; cbn [g_call] in E; unfold g_add, g_add_arr, g_add_red, s_add, s_add_arr, s_add_red in E; cbn [sm_ts addf_of];
        destruct (g_add_with _ _ _) as [[b g']| |]; cbn [bind] in E; try discriminate; eauto. }
    destruct H as (b & g2 & H). destruct (add_def ne f _ _ _ _ _ _ NX H) as (e & g3 & H3). destruct x; try contradiction; eauto.
  - assert (NX : not_list x) by (destruct x; try exact I; contradiction).
    assert (H : exists q, g_push_with ne (s_put ne c1 c2 (sm_ts x) false (addf_of x)) (s_put ne c1 c2 (sm_ts x) true (addf_of x)) h g = Ok q).
    { destruct x; try contradiction; cbn [g_call] in E;
        unfold g_push, g_push_arr, g_push_red, s_add, s_add_arr, s_add_red, s_push, s_push_arr, s_push_red in E; cbn [sm_ts addf_of];
        destruct (g_push_with _ _ _ _ _) as [q| |]; cbn [bind] in E; try discriminate; eauto. }
    assert (H2 : exists e g2, g_push_f ne f c1 c2 (sm_ts x) h (sm_op x) g = Ok (e, g2)).
    { destruct H as [q H]. unfold g_push_f. destruct (h && at_start f); [eauto|]. unfold g_push_with in H. destruct (negb (g_enabled g)); [eauto|].
      destruct h; cbn [negb] in *.
      - destruct (s_put ne c1 c2 (sm_ts x) true (addf_of x) (g_sep g)) as [[[b1 rc] s1]| |] eqn:Ep; cbn [bind] in H; try discriminate.
        destruct (put_def ne f _ _ _ _ _ _ _ _ _ NX Ep) as (b' & rc' & lo & s1' & -> & R). cbn [bind].
        destruct (g_finish_all ne (g_out g) rc) as [ds| |] eqn:Ef; cbn [bind] in H; try discriminate.
        destruct R as [-> | ->]; [cbn [g_finish_all bind]; eauto|]. rewrite Ef. cbn [bind]. eauto.
      - destruct (g_add_with _ _ _) as [[b g2]| |] eqn:Ea; cbn [bind] in H; try discriminate. exact (add_def ne f _ _ _ _ _ _ NX Ea). }
    destruct x; try contradiction; exact H2.
  - cbn [g_call] in E. unfold g_separate_f. destruct (h && at_start f); [eauto|]. unfold g_separate in E.
    destruct (s_separate ne c ts h force (g_sep g)) as [[[b rc] s]| |] eqn:Es; cbn [bind] in E; try discriminate.
    destruct (separate_def ne (at_detach f) (negb h && at_queue f) _ _ _ _ _ _ Es) as (b' & rc' & lo & s' & E'). rewrite E'. cbn [bind].
    destruct b' as [b'|]; [|eauto]. destruct (separate_some _ _ _ _ _ _ _ _ _ _ _ _ E') as [_ E2]. rewrite Es in E2. injection E2 as -> -> ->.
    destruct (g_aggregate0_ ne (g_set_sep s' g)) as [g3| |] eqn:E0; cbn [bind] in E; try discriminate.
    destruct (aggregate0_def ne (at_ag f) _ _ E0) as (e & g2 & ->). cbn [bind]. eauto.
  - rewrite E. cbn [bind]. eauto.
  - destruct (_ && _ && _); [eauto|]. rewrite E. cbn [bind]. eauto.
  - destruct (at_detach f); [eauto|]. rewrite E. cbn [bind]. eauto.
  - rewrite E. cbn [bind]. eauto.
  - rewrite E. cbn [bind]. eauto.
Qed.
Print Assumptions C94_defined.
(** Each kind of failure meets a call that is well defined. *)
Example C94_defined_witness : exists o1 g1, g_call ne_rev (GoAdd (SmScalar 103 7 1) 0 0) gx_g0 = Ok (o1, g1) /\
  Forall (fun f => exists o2 g2 recs lost g3, g_call ne_rev (GoAdd (SmArr 117 [1; 2] 4) 0 0) g1 = Ok (o2, g2) /\
                   gf_call ne_rev (GoAdd (SmArr 117 [1; 2] 4) 0 0) (Some f) g1 = Ok (GThrew recs lost, g3))
    [GfDetach; GfQueue; GfAg 0; GfValue 0 FRow].
Proof.
  eexists _, _. split; [vm_compute; reflexivity|].
  repeat (constructor; [eexists _, _, _, _, _; split; vm_compute; reflexivity|]). constructor.
Qed.
