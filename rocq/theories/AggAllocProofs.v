(** Proofs about an aggregator whose allocations fail. *)
From Coq Require Import ZArith List Bool Arith Lia Permutation.
From Verif Require Import Base SortFacts ModelTypes ModelAvg ModelReducer SpecReducer ModelSeparator SpecSeparator ModelAggregator SpecAggregator
  ModelAlloc SpecAlloc ModelAggAlloc SpecAggAlloc ReducerProofs MultiRun AllocProofs SepRun AggProofs AggRun AggFinal ThrowProofs.
Import ListNotations.
Local Open Scope Z_scope.

(** * Book-keeping: the records in sight and the open account, before and after *)
Definition flow (l : list adata) (ac : account) (D : Z) (T : list Z) (l' : list adata) (ac' : account) : Prop :=
  u64 (sum_count l' + a_declared ac') = u64 (sum_count l + a_declared ac + D) /\
  submultiset (flat_map ad_data l' ++ a_tried ac') ((flat_map ad_data l ++ a_tried ac) ++ T).

Lemma flow_refl l ac : flow l ac 0 [] l ac.
Proof. split; [f_equal; lia|]. rewrite app_nil_r. apply submultiset_refl. Qed.
Lemma flow_trans l1 a1 D1 T1 l2 a2 D2 T2 l3 a3 : flow l1 a1 D1 T1 l2 a2 -> flow l2 a2 D2 T2 l3 a3 -> flow l1 a1 (D1 + D2) (T1 ++ T2) l3 a3.
Proof.
  intros [C1 S1] [C2 S2]. split.
  - rewrite C2, <- u64_add_l, C1, u64_add_l. f_equal. lia.
  - eapply submultiset_trans; [exact S2|]. rewrite app_assoc. apply submultiset_app; [exact S1|apply submultiset_refl].
Qed.
Lemma sumc_perm l m : Permutation l m -> sum_count l = sum_count m.
Proof. unfold sum_count. induction 1; simpl in *; lia. Qed.
Lemma flow_perm l ac D T l' ac' m m' : flow l ac D T l' ac' -> Permutation l m -> Permutation l' m' -> flow m ac D T m' ac'.
Proof.
  intros [C S] P P'. split.
  - now rewrite <- (sumc_perm _ _ P), <- (sumc_perm _ _ P').
  - eapply submultiset_perm_l; [apply Permutation_app; [apply Permutation_flat_map; exact P'|reflexivity]|].
    eapply submultiset_perm_r; [|exact S]. apply Permutation_app; [|reflexivity]. apply Permutation_app; [|reflexivity].
    apply Permutation_flat_map; exact P.
Qed.
Lemma flow_frame m l ac D T l' ac' : flow l ac D T l' ac' -> flow (m ++ l) ac D T (m ++ l') ac'.
Proof.
  intros [C S]. split.
  - rewrite !sum_count_app. replace (sum_count m + sum_count l' + a_declared ac') with ((sum_count l' + a_declared ac') + sum_count m) by lia.
    rewrite <- u64_add_l, C, u64_add_l. f_equal. lia.
  - rewrite !flat_map_app, <- !app_assoc in *. apply submultiset_app; [apply submultiset_refl|exact S].
Qed.
Lemma flow_more l ac D T T' l' ac' : flow l ac D T l' ac' -> submultiset T T' -> flow l ac D T' l' ac'.
Proof. intros [C S] S'. split; [exact C|]. eapply submultiset_trans; [exact S|]. apply submultiset_app; [apply submultiset_refl|exact S']. Qed.
Lemma flow_nil l ac D T l' ac' : flow l ac D [] l' ac' -> flow l ac D T l' ac'.
Proof. intros F. eapply flow_more; [exact F|]. exists T. reflexivity. Qed.
Lemma flow_finished out ac l ds : Forall2 (finished out) l ds -> flow l ac 0 [] ds ac.
Proof.
  intros F. split.
  - rewrite Z.add_0_r. f_equal. f_equal. unfold sum_count. induction F as [|a d l ds H F IH]; [reflexivity|]. cbn [map fold_right].
    unfold ad_count at 1 3. rewrite (proj1 H), IH. reflexivity.
  - rewrite app_nil_r. apply submultiset_app; [|apply submultiset_refl]. induction F as [|a d l ds H F IH]; [apply submultiset_refl|].
    cbn [flat_map]. apply submultiset_app; [exact (finished_sub _ _ _ H)|exact IH].
Qed.

Lemma perm4 {A} (a b c d : list A) : Permutation (a ++ b ++ c ++ d) (b ++ c ++ a ++ d).
Proof. rewrite (app_assoc b c d), (app_assoc b c (a ++ d)). apply Permutation_app_swap_app. Qed.

Section T.
  Variable ne : nat -> list Z -> list Z.
  Hypothesis Hne : nth_element_ok ne.

  (** The invariant of the reducer inside. *)
  Definition RInv (o : ropts) (ac : account) (r : reducer) : Prop := AInv o ac r /\ (a_seen ac = false -> a_declared ac = 0).

  Lemma detach_flow o ac r a r1 : RInv o ac r -> r_detach ne r = Ok (a, r1) ->
    match a with
    | Some x => RInv o account0 r1 /\ forall t, flow [] ac 0 [] [ad_set_ts t x] account0
    | None => r1 = r
    end.
  Proof.
    intros [I S] E. pose proof (detach_account ne Hne o ac r I) as D. destruct (f64_to_i64 _).
    - destruct D as (d & r' & Ed & D). rewrite Ed in E. injection E as -> ->. destruct (a_seen ac).
      + destruct D as (I' & x & -> & R). split; [split; [exact I'|reflexivity]|]. intros t.
        destruct R as (R1 & _ & _ & _ & R5 & _). split.
        * unfold sum_count. cbn [map fold_right]. change (ad_count (ad_set_ts t x)) with (ad_count x). rewrite R1.
          cbn [account0 a_declared]. rewrite !Z.add_0_r. unfold u64. now rewrite Z.mod_mod by (unfold two64; lia).
        * cbn [flat_map app account0 a_tried]. rewrite !app_nil_r. exact R5.
      + destruct D as [-> ->]. reflexivity.
    - destruct (a_seen ac); rewrite D in E; [discriminate|]. now injection E as <- <-.
    - contradiction.
  Qed.

  Definition lost_of (e : option (list adata)) : list adata := match e with Some l => l | None => [] end.
  Lemma loop_flow o fd fq fuel : forall step ts next ac r recs e r2 n2, RInv o ac r ->
    sep_loop_f ne fd fq fuel step ts next r = Ok (recs, e, r2, n2) ->
    exists ac', RInv o ac' r2 /\ flow [] ac 0 [] (recs ++ lost_of e) ac'.
  Proof.
    induction fuel as [|fuel IH]; intros step ts next ac r recs e r2 n2 I E; cbn [sep_loop_f] in E; destruct (next <=? ts); try discriminate.
    - injection E as <- <- <- _. exists ac. split; [exact I|apply flow_refl].
    - destruct (fd && negb (r_empty r)); [injection E as <- <- <- _; exists ac; split; [exact I|apply flow_refl]|].
      destruct (r_detach ne r) as [[a r1]| |] eqn:Ed; cbn [bind] in E; try discriminate.
      pose proof (detach_flow _ _ _ _ _ I Ed) as DF. destruct a as [x|].
      + destruct DF as [I1 F1]. destruct (chk (next - step)) as [t| |]; cbn [bind] in E; try discriminate. cbv zeta in E.
        destruct fq; [injection E as <- <- <- _; exists account0; split; [exact I1|apply F1]|].
        destruct (chk (next + step)) as [n1| |]; cbn [bind] in E; try discriminate.
        destruct (sep_loop_f ne fd false fuel step ts n1 r1) as [[[[rc e1] r3] n3]| |] eqn:EL; cbn [bind] in E; try discriminate.
        injection E as <- <- <- _. destruct (IH _ _ _ _ _ _ _ _ _ I1 EL) as (ac' & I' & F'). exists ac'. split; [exact I'|].
        apply (flow_frame [ad_set_ts t x]) in F'. rewrite app_nil_r in F'. exact (flow_trans _ _ _ _ _ _ _ _ _ _ (F1 t) F').
      + subst r1. destruct (chk (next + step)) as [n1| |]; cbn [bind] in E; try discriminate. exact (IH _ _ _ _ _ _ _ _ _ I E).
    - injection E as <- <- <- _. exists ac. split; [exact I|apply flow_refl].
  Qed.

  Lemma separate_flow o fd fq c ts h force s ac b recs lost s1 : RInv o ac (s_red s) ->
    s_separate_f ne fd fq c ts h force s = Ok (b, recs, lost, s1) ->
    exists ac', RInv o ac' (s_red s1) /\ flow (s_list s) ac 0 [] (recs ++ lost ++ s_list s1) ac'.
  Proof.
    intros I. unfold s_separate_f. destruct (get_ts _ _ _ _) as [t0| |]; cbn [bind]; try discriminate.
    destruct (_ && _); [intros E; injection E as <- <- <- <-; exists ac; split; [exact I|apply flow_refl]|].
    destruct (sep_loop_f _ _ _ _ _ _ _ _) as [[[[rc e] r2] n2]| |] eqn:EL; cbn [bind]; try discriminate.
    intros E; injection E as <- <- <- <-. destruct (loop_flow _ _ _ _ _ _ _ _ _ _ _ _ _ I EL) as (ac' & I' & F). exists ac'.
    cbn [s_red s_list]. split; [exact I'|]. apply (flow_frame (s_list s)) in F. rewrite app_nil_r in F. fold (lost_of e).
    eapply flow_perm; [exact F|reflexivity|]. destruct h.
    - rewrite app_nil_r, (app_assoc rc). apply Permutation_app_comm.
    - cbn [app]. rewrite (app_assoc (s_list s) rc). apply Permutation_app_comm.
  Qed.

  (** What a measurement brings in. *)
  Definition put_ev (b : option bool) (op : rop) : Z := match b with Some true => op_declared op | _ => 0 end.
  Definition put_vals (b : option bool) (f : option gfail) (op : rop) : list Z :=
    match b with
    | Some true => op_values op
    | Some false => []
    | None => match f with Some (GfValue i _) => firstn (S i) (op_values op) | _ => [] end
    end.
  Lemma sound_flow o ac op f r e s : RInv o ac r -> is_add op = true -> is_u64 (op_declared op) -> f_sound ne op (at_value f) r = Ok (e, s) ->
    exists ac', RInv o ac' (f_red s) /\
      let b := match e with FRet _ => Some true | FThrew => None end in flow [] ac (put_ev b op) (put_vals b f op) [] ac'.
  Proof.
    intros [I S] A U E.
    assert (NF : at_value f <> Some AtFree) by (destruct f as [[| | | |]|]; discriminate).
    destruct (sound_inv ne Hne _ _ _ _ _ _ _ I U NF E) as (r' & -> & I'). exists (a_step ac (op, at_value f, e)). cbn [f_red].
    destruct e as [d|].
    - rewrite (a_step_add ac op _ d A) in *. split; [split; [exact I'|discriminate]|]. cbv zeta.
      split; cbn [put_ev put_vals a_declared a_tried flat_map app sum_count map fold_right]; [unfold sum_count; cbn; f_equal; lia|].
      apply submultiset_refl.
    - destruct f as [[| | |i k|]|]; cbn [at_value] in *;
        try (exfalso; destruct op; cbn in E; try discriminate; destruct (r_get_reduced _ _) as [?| |]; discriminate).
      cbn [a_step] in *. split; [split; [exact I'|]|].
      + cbn [a_seen a_declared]. destruct op; try discriminate; exact S.
      + cbv zeta. split; cbn [put_ev put_vals a_declared a_tried flat_map app]; [unfold sum_count; cbn; f_equal; lia|]. apply submultiset_refl.
  Qed.
  Lemma put_flow o f c1 c2 ts h op s ac b recs lost s1 : RInv o ac (s_red s) -> is_add op = true -> is_u64 (op_declared op) ->
    s_put_f ne f c1 c2 ts h op s = Ok (b, recs, lost, s1) ->
    exists ac', RInv o ac' (s_red s1) /\ flow (s_list s) ac (put_ev b op) (put_vals b f op) (recs ++ lost ++ s_list s1) ac'.
  Proof.
    intros I A U. unfold s_put_f. destruct (get_ts _ _ _ _) as [t0| |]; cbn [bind]; try discriminate.
    destruct (s_separate_f _ _ _ _ _ _ _ _) as [[[[b1 rc] lo] s2]| |] eqn:Es; cbn [bind]; try discriminate.
    destruct (separate_flow _ _ _ _ _ _ _ _ _ _ _ _ _ I Es) as (a1 & I1 & F1). destruct b1 as [b1|].
    - destruct (chk _) as [cur| |]; cbn [bind]; try discriminate. destruct (t0 <? cur).
      + intros E; injection E as <- <- <- <-. exists a1. split; [exact I1|exact F1].
      + destruct (f_sound _ _ _ _) as [[e r]| |] eqn:Ef; cbn [bind]; try discriminate. intros E; injection E as <- <- <- <-.
        destruct (sound_flow _ _ _ _ _ _ _ I1 A U Ef) as (a2 & I2 & F2). exists a2. split; [exact I2|]. cbn [s_list]. cbv zeta in F2.
        apply (flow_frame (rc ++ lo ++ s_list s2)) in F2. rewrite app_nil_r in F2. exact (flow_trans _ _ _ _ _ _ _ _ _ _ F1 F2).
    - intros E; injection E as <- <- <- <-. exists a1. split; [exact I1|]. apply flow_nil. exact F1.
  Qed.

  Lemma loop_none fd fq fuel : forall step ts next r recs e r2 n2, sep_loop_f ne fd fq fuel step ts next r = Ok (recs, Some e, r2, n2) ->
    (fd = true /\ e = [] /\ r_empty r = false /\ recs = [] /\ r2 = r /\ n2 = next) \/ (fd = false /\ fq = true /\ exists d, e = [d] /\ recs = [] /\ n2 = next).
  Proof.
    assert (NO : forall fuel step ts next r recs e r2 n2, r_empty r = true -> sep_loop_f ne fd fq fuel step ts next r <> Ok (recs, Some e, r2, n2)).
    { induction fuel0 as [|f IH]; intros step ts next r recs e r2 n2 Er E; cbn [sep_loop_f] in E; destruct (next <=? ts); try discriminate.
      rewrite Er in E. cbn [negb] in E. rewrite andb_false_r, (detach_none ne _ Er) in E. cbn [bind] in E.
      destruct (chk (next + step)); cbn [bind] in E; try discriminate. eapply IH; eauto. }
    destruct fuel as [|fuel]; intros step ts next r recs e r2 n2; cbn [sep_loop_f]; destruct (next <=? ts); try discriminate.
    destruct (fd && negb (r_empty r)) eqn:Ef.
    { apply andb_true_iff in Ef as [-> Er]. apply negb_true_iff in Er. intros E; injection E as <- <- <- <-. left. auto 8. }
    destruct (r_detach ne r) as [[[x|] r1]| |] eqn:Ed; cbn [bind]; try discriminate.
    - destruct (chk (next - _)) as [t| |]; cbn [bind]; try discriminate. cbv zeta. destruct fq eqn:Eq.
      + intros E; injection E as <- <- <- <-. right. split; [|split; [reflexivity|]; eauto].
        destruct fd; [|reflexivity]. cbn [andb] in Ef. apply negb_false_iff in Ef. unfold r_detach in Ed. rewrite Ef in Ed. discriminate.
      + destruct (chk (next + _)) as [n1| |]; cbn [bind]; try discriminate.
        destruct (sep_loop_f _ _ _ _ _ _ _ _) as [[[[rc e1] r3] n3]| |] eqn:EL; cbn [bind]; try discriminate.
        intros E; injection E as _ -> _ _. elim (NO _ _ _ _ _ _ _ _ _ (detach_empty ne _ _ _ Ed) EL).
    - destruct (chk (next + _)) as [n1| |]; cbn [bind]; try discriminate. intros E. elim (NO _ _ _ _ _ _ _ _ _ (detach_empty ne _ _ _ Ed) E).
  Qed.
  (** A separate() left by bad_alloc: in detach(), with nothing changed, or with a record in hand. *)
  Lemma separate_none fd fq c ts h force s recs lost s1 : s_separate_f ne fd fq c ts h force s = Ok (None, recs, lost, s1) ->
    recs = [] /\ ((fd = true /\ lost = [] /\ s1 = s /\ r_empty (s_red s) = false) \/ (fd = false /\ fq = true /\ exists d, lost = [d])).
  Proof.
    unfold s_separate_f. destruct (get_ts _ _ _ _) as [t1| |]; cbn [bind]; try discriminate. destruct (_ && _); [discriminate|].
    destruct (sep_loop_f _ _ _ _ _ _ _ _) as [[[[rc' e] r2] n2]| |] eqn:EL; cbn [bind]; try discriminate.
    destruct e as [l|]; [|discriminate]. intros E; injection E as <- <- <-.
    destruct (loop_none _ _ _ _ _ _ _ _ _ _ _ EL) as [(-> & -> & Er & -> & -> & ->)|(-> & -> & d & -> & -> & ->)].
    - split; [now destruct h|]. left. split; [reflexivity|]. split; [reflexivity|]. split; [|exact Er].
      destruct s; cbn. destruct h; now rewrite app_nil_r.
    - split; [now destruct h|]. right. eauto.
  Qed.
  Lemma separate_some fd fq c ts h force s b recs lost s1 : s_separate_f ne fd fq c ts h force s = Ok (Some b, recs, lost, s1) ->
    lost = [] /\ s_separate ne c ts h force s = Ok (b, recs, s1).
  Proof.
    unfold s_separate_f, s_separate. destruct (get_ts _ _ _ _) as [t1| |]; cbn [bind]; try discriminate.
    destruct (_ && _); [intros E; injection E as <- <- <- <-; auto|].
    destruct (sep_loop_f _ _ _ _ _ _ _ _) as [[[[rc' e] r2] n2]| |] eqn:EL; cbn [bind]; try discriminate.
    destruct e as [l|]; [discriminate|]. intros E; injection E as <- <- <- <-. split; [reflexivity|].
    assert (L : forall fuel step ts next r recs r2 n2, sep_loop_f ne fd fq fuel step ts next r = Ok (recs, None, r2, n2) ->
      sep_loop ne fuel step ts next r = Ok (recs, r2, n2)).
    { clear. induction fuel as [|fuel IH]; intros step ts next r recs r2 n2; cbn [sep_loop_f sep_loop]; destruct (next <=? ts); try discriminate.
      - intros H; injection H as <- <- <-; reflexivity.
      - destruct (fd && _); [discriminate|]. destruct (r_detach ne r) as [[[x|] r1]| |]; cbn [bind]; try discriminate.
        + destruct (chk (next - _)) as [t| |]; cbn [bind]; try discriminate. cbv zeta. destruct fq; [discriminate|].
          destruct (chk (next + _)) as [n1| |]; cbn [bind]; try discriminate.
          destruct (sep_loop_f _ _ _ _ _ _ _ _) as [[[[rc e1] r3] n3]| |] eqn:EL; cbn [bind]; try discriminate.
          intros H; injection H as <- -> <- <-. rewrite (IH _ _ _ _ _ _ _ EL). reflexivity.
        + destruct (chk (next + _)) as [n1| |]; cbn [bind]; try discriminate. intros E. rewrite (IH _ _ _ _ _ _ _ E). reflexivity.
      - intros H; injection H as <- <- <-; reflexivity. }
    rewrite (L _ _ _ _ _ _ _ _ EL). reflexivity.
  Qed.
  Lemma separate_quiet c ts force s b recs s1 : s_separate ne c ts false force s = Ok (b, recs, s1) -> recs = [].
  Proof.
    unfold s_separate. destruct (get_ts _ _ _ _) as [t1| |]; cbn [bind]; try discriminate.
    destruct (_ && _); [intros E; now injection E|].
    destruct (sep_loop _ _ _ _ _ _) as [[[rc' r2] n2]| |]; cbn [bind]; try discriminate. intros E; now injection E.
  Qed.

  Lemma sound_threw x f r s : f_sound ne (sm_op x) (at_value f) r = Ok (FThrew, s) -> exists i k, f = Some (GfValue i k).
  Proof. intros E. destruct f as [[| | |i k|]|]; cbn [at_value] in E; eauto; destruct x; cbn in E; discriminate. Qed.
  Lemma sound_ret x f r a s : f_sound ne (sm_op x) f r = Ok (FRet a, s) -> f_red s = addf_of x r.
  Proof.
    intros E. assert (P : f_plain ne (sm_op x) r = Ok (FRet a, s)).
    { destruct f as [[i k| |]|]; [|destruct x; exact E|destruct x; exact E|destruct x; exact E].
      unfold f_sound in E. destruct (is_add _); [|exact E]. destruct (r_add_all_fail _ _ _ _); [discriminate|exact E]. }
    destruct x; cbn in P; injection P as _ <-; reflexivity.
  Qed.
  Lemma put_none f c1 c2 ts h x s recs lost s1 : s_put_f ne f c1 c2 ts h (sm_op x) s = Ok (None, recs, lost, s1) ->
    (h = false -> recs = []) /\
    ((f = Some GfDetach /\ recs = [] /\ lost = [] /\ s1 = s) \/ (f = Some GfQueue /\ recs = [] /\ exists d, lost = [d]) \/
     ((exists i k, f = Some (GfValue i k)) /\ lost = [])).
  Proof.
    unfold s_put_f. destruct (get_ts _ _ _ _) as [t0| |]; cbn [bind]; try discriminate.
    destruct (s_separate_f _ _ _ _ _ _ _ _) as [[[[b1 rc] lo] s2]| |] eqn:Es; cbn [bind]; try discriminate. destruct b1 as [b1|].
    - destruct (separate_some _ _ _ _ _ _ _ _ _ _ _ Es) as [-> E1]. destruct (chk _); cbn [bind]; try discriminate. destruct (_ <? _); [discriminate|].
      destruct (f_sound _ _ _ _) as [[[?|] ?]| |] eqn:Ef; cbn [bind]; try discriminate. intros E; injection E as <- <- <-. split.
      + intros ->. exact (separate_quiet _ _ _ _ _ _ _ E1).
      + right. right. split; [|reflexivity]. exact (sound_threw _ _ _ _ Ef).
    - intros E; injection E as <- <- <-. destruct (separate_none _ _ _ _ _ _ _ _ _ _ Es) as [-> H]. split; [auto|].
      destruct H as [(Ed & -> & -> & _)|(_ & Eq & H)].
      + left. destruct f as [[| | | |]|]; try discriminate. auto.
      + right. left. destruct f as [[| | | |]|]; try discriminate. auto.
  Qed.
  Lemma put_some f c1 c2 ts h x s b recs lost s1 : s_put_f ne f c1 c2 ts h (sm_op x) s = Ok (Some b, recs, lost, s1) ->
    lost = [] /\ s_put ne c1 c2 ts h (addf_of x) s = Ok (b, recs, s1) /\ (h = false -> recs = []).
  Proof.
    unfold s_put_f, s_put. destruct (get_ts _ _ _ _) as [t0| |]; cbn [bind]; try discriminate.
    destruct (s_separate_f _ _ _ _ _ _ _ _) as [[[[b1 rc] lo] s2]| |] eqn:Es; cbn [bind]; try discriminate. destruct b1 as [b1|]; [|discriminate].
    destruct (separate_some _ _ _ _ _ _ _ _ _ _ _ Es) as [-> E1]. rewrite E1. cbn [bind].
    assert (Q : h = false -> rc = []) by (intros ->; exact (separate_quiet _ _ _ _ _ _ _ E1)).
    destruct (chk _) as [cur| |]; cbn [bind]; try discriminate. destruct (_ <? _).
    - intros E; injection E as <- <- <- <-; auto.
    - destruct (f_sound _ _ _ _) as [[[a|] s3]| |] eqn:Ef; cbn [bind]; try discriminate. intros E; injection E as <- <- <- <-.
      rewrite (sound_ret _ _ _ _ _ Ef). auto.
  Qed.

  Definition held (g : agg) : list adata := g_list g ++ s_list (g_sep g).
  Lemma aggregate0_flow n g ac e g1 : g_aggregate0_f ne n g = Ok (e, g1) ->
    flow (held g) ac 0 [] (lost_of e ++ held g1) ac /\ s_red (g_sep g1) = s_red (g_sep g) /\ g_enabled g1 = g_enabled g.
  Proof.
    unfold g_aggregate0_f. intros E. cbv zeta in E.
    assert (PL : forall g1, g_aggregate0_ ne g = Ok g1 ->
      flow (held g) ac 0 [] (held g1) ac /\ s_red (g_sep g1) = s_red (g_sep g) /\ g_enabled g1 = g_enabled g).
    { intros g2 E2. unfold g_aggregate0_ in E2. destruct (g_finish_all _ _ _) as [ds| |] eqn:Ef; cbn [bind] in E2; try discriminate.
      injection E2 as <-. unfold held; cbn [g_list g_sep s_list s_red g_enabled]. rewrite app_nil_r.
      split; [|auto]. apply flow_frame. apply (flow_finished (g_out g)). exact (finish_all_fun ne Hne _ _ _ Ef). }
    destruct n as [n|]; [destruct (nth_error (s_list (g_sep g)) n) as [a|] eqn:En|].
    2,3: destruct (g_aggregate0_ ne g) as [g2| |]; cbn [bind] in E; try discriminate; injection E as <- <-; apply (PL _ eq_refl).
    destruct (g_finish_all _ _ _) as [ds| |] eqn:Ef; cbn [bind] in E; try discriminate.
    destruct (g_finish _ _ _) as [d| |] eqn:Ed; cbn [bind] in E; try discriminate.
    injection E as <- <-. unfold held; cbn [g_list g_sep s_list s_red g_enabled lost_of]. split; [|auto].
    apply (finish_all_fun ne Hne) in Ef. apply (finish_fun ne Hne) in Ed.
    set (l := s_list (g_sep g)) in *. assert (HL : l = firstn n l ++ a :: skipn (S n) l).
    { rewrite <- (firstn_skipn (S n) l) at 1. rewrite (nth_firstn _ _ _ En), <- app_assoc. reflexivity. }
    assert (F : flow (firstn n l ++ [a]) ac 0 [] (ds ++ [d]) ac).
    { apply (flow_finished (g_out g)). apply Forall2_app; [exact Ef|]. constructor; [exact Ed|constructor]. }
    apply (flow_frame (skipn (S n) l ++ g_list g)) in F. eapply flow_perm; [exact F| |].
    - rewrite HL at 3. rewrite <- app_assoc. etransitivity; [apply Permutation_app_comm|]. rewrite <- !app_assoc. apply Permutation_app_head.
      apply Permutation_app_head. cbn [app]. reflexivity.
    - etransitivity; [apply Permutation_app_comm|]. rewrite <- app_assoc. cbn [app].
      etransitivity; [symmetry; apply Permutation_middle|]. apply perm_skip.
      etransitivity; [apply Permutation_app_head, Permutation_app_comm|]. rewrite !app_assoc. apply Permutation_app_tail. apply Permutation_app_comm.
  Qed.

  Lemma aggregate0_some n g l g1 : g_aggregate0_f ne n g = Ok (Some l, g1) -> exists k d, n = Some k /\ l = [d].
  Proof.
    unfold g_aggregate0_f. cbv zeta. destruct n as [n|]; [destruct (nth_error _ n)|].
    - destruct (g_finish_all _ _ _); cbn [bind]; try discriminate. destruct (g_finish _ _ _); cbn [bind]; try discriminate.
      intros E; injection E as <- _. eauto.
    - destruct (g_aggregate0_ _ _); cbn [bind]; discriminate.
    - destruct (g_aggregate0_ _ _); cbn [bind]; discriminate.
  Qed.
  Lemma aggregate0_none n g g1 : g_aggregate0_f ne n g = Ok (None, g1) -> g_aggregate0_ ne g = Ok g1.
  Proof.
    unfold g_aggregate0_f. cbv zeta. destruct n as [n|]; [destruct (nth_error _ n)|].
    - destruct (g_finish_all _ _ _); cbn [bind]; try discriminate. destruct (g_finish _ _ _); cbn [bind]; discriminate.
    - destruct (g_aggregate0_ _ _); cbn [bind]; try discriminate. intros E; now injection E as <-.
    - destruct (g_aggregate0_ _ _); cbn [bind]; try discriminate. intros E; now injection E as <-.
  Qed.

  (** * Calls *)
  Definition ev1 (i : intake) : Z := match i with Whole op => op_declared op | _ => 0 end.
  Definition tr1 (i : intake) : list Z := match i with Whole op => op_values op | First n op => firstn n (op_values op) | Nothing => [] end.
  Definition given1 (e : gend) : list adata := match e with GRet o => out_handler o | GThrew recs _ => recs end.
  Definition lost1 (e : gend) : list adata := match e with GRet _ => [] | GThrew _ l => l end.
  Definition popped1 (op : gop) (e : gend) : list adata :=
    match op, e with GoPop, GRet o | GoForcePop, GRet o => match out_ptr o with Some a => [a] | None => [] end | _, _ => [] end.

  Lemma add_flow o f c1 c2 x g ac e g1 : RInv o ac (s_red (g_sep g)) -> is_add (sm_op x) = true -> is_u64 (op_declared (sm_op x)) ->
    g_add_f ne f c1 c2 (sm_ts x) (sm_op x) g = Ok (e, g1) ->
    g_enabled g1 = g_enabled g /\ exists ac', RInv o ac' (s_red (g_sep g1)) /\
      let i := if g_enabled g then intake_of (GoAdd x c1 c2, f, e) else Nothing in
      flow (held g) ac (ev1 i) (tr1 i) (given1 e ++ lost1 e ++ held g1) ac'.
  Proof.
    intros I A U. unfold g_add_f. destruct (g_enabled g) eqn:En; cbn [negb].
    2: { intros E; injection E as <- <-. split; [exact En|]. exists ac. split; [exact I|]. apply flow_refl. }
    destruct (s_put_f _ _ _ _ _ _ _ _) as [[[[b recs] lost] s]| |] eqn:Ep; cbn [bind]; try discriminate.
    destruct (put_flow _ _ _ _ _ _ _ _ _ _ _ _ _ I A U Ep) as (a1 & I1 & F1).
    apply (flow_frame (g_list g)) in F1.
    destruct b as [b|].
    - destruct (put_some _ _ _ _ _ _ _ _ _ _ _ Ep) as (-> & _ & Q). specialize (Q eq_refl). subst recs. cbn [app] in F1. destruct b.
      + destruct (g_aggregate0_f _ _ _) as [[e0 g2]| |] eqn:E0; cbn [bind]; try discriminate. intros E; injection E as <- <-.
        destruct (aggregate0_flow _ _ a1 _ _ E0) as (F2 & R2 & N2). cbn [g_set_sep g_enabled g_sep] in R2, N2. split; [now rewrite N2|].
        exists a1. rewrite R2. split; [exact I1|]. cbv zeta. cbn [put_ev put_vals] in F1.
        unfold held in F2 at 1. cbn [g_set_sep g_list g_sep] in F2.
        pose proof (flow_trans _ _ _ _ _ _ _ _ _ _ F1 F2) as F. rewrite Z.add_0_r, app_nil_r in F.
        destruct e0 as [l|]; cbn [given1 lost1 out_handler lost_of app] in *; [|exact F].
        destruct (aggregate0_some _ _ _ _ E0) as (n & d & En' & _). destruct f as [[| | | |n']|]; try discriminate. exact F.
      + intros E; injection E as <- <-. split; [exact En|]. exists a1. split; [exact I1|]. exact F1.
    - intros E; injection E as <- <-. split; [exact En|]. exists a1. split; [exact I1|]. cbv zeta. cbn [given1 lost1 put_ev put_vals] in *.
      unfold held at 2. cbn [g_set_sep g_list g_sep].
      assert (F2 : flow (held g) ac 0 (put_vals None f (sm_op x)) (recs ++ lost ++ g_list g ++ s_list s) a1).
      { eapply flow_perm; [exact F1|reflexivity|]. apply perm4. }
      destruct (put_none _ _ _ _ _ _ _ _ _ _ Ep) as [_ [(-> & _)|[(-> & _)|((i & k & ->) & _)]]]; exact F2.
  Qed.
  Lemma typed_add x : op_typed (sm_op x) -> is_add (sm_op x) = true /\ is_u64 (op_declared (sm_op x)).
  Proof. intros [_ U]. split; [now destruct x|exact U]. Qed.
  Lemma push_flow o f c1 c2 h x g ac e g1 : RInv o ac (s_red (g_sep g)) -> is_add (sm_op x) = true -> is_u64 (op_declared (sm_op x)) ->
    g_push_f ne f c1 c2 (sm_ts x) h (sm_op x) g = Ok (e, g1) ->
    g_enabled g1 = g_enabled g /\ exists ac', RInv o ac' (s_red (g_sep g1)) /\
      let i := if g_enabled g then intake_of (GoPush x h c1 c2, f, e) else Nothing in
      flow (held g) ac (ev1 i) (tr1 i) (given1 e ++ lost1 e ++ held g1) ac'.
  Proof.
    intros I A U. unfold g_push_f. destruct (h && at_start f) eqn:Es.
    { intros E; injection E as <- <-. split; [reflexivity|]. exists ac. split; [exact I|]. cbv zeta.
      apply andb_true_iff in Es as [_ Es]. destruct f as [[| | | |]|]; try discriminate.
      destruct (g_enabled g); apply flow_refl. }
    destruct (g_enabled g) eqn:En; cbn [negb].
    2: { intros E; injection E as <- <-. split; [exact En|]. exists ac. split; [exact I|]. apply flow_refl. }
    destruct h; cbn [negb].
    2: { intros E. destruct (add_flow o f c1 c2 x g ac e g1 I A U E) as (N & H). rewrite En in N, H. split; [exact N|exact H]. }
    destruct (s_put_f _ _ _ _ _ _ _ _) as [[[[b recs] lost] s]| |] eqn:Ep; cbn [bind]; try discriminate.
    destruct (put_flow _ _ _ _ _ _ _ _ _ _ _ _ _ I A U Ep) as (a1 & I1 & F1).
    destruct (g_finish_all _ _ _) as [ds| |] eqn:Ef; cbn [bind]; try discriminate. apply (finish_all_fun ne Hne) in Ef.
    intros E; injection E as <- <-. split; [exact En|]. exists a1. split; [exact I1|]. cbv zeta.
    unfold held at 2. cbn [g_set_sep g_list g_sep].
    assert (F2 : flow (held g) ac (put_ev b (sm_op x)) (put_vals b f (sm_op x)) (ds ++ lost ++ g_list g ++ s_list s) a1).
    { apply (flow_frame (g_list g)) in F1. apply (flow_finished _ a1) in Ef. apply (flow_frame (lost ++ g_list g ++ s_list s)) in Ef.
      rewrite <- (app_nil_r (put_vals _ _ _)), <- (Z.add_0_r (put_ev _ _)). eapply flow_trans.
      - eapply flow_perm; [exact F1|reflexivity|]. apply perm4.
      - eapply flow_perm; [exact Ef| |].
        + rewrite <- !app_assoc. etransitivity; [|apply Permutation_app_comm]. rewrite <- !app_assoc. reflexivity.
        + apply Permutation_app_comm. }
    destruct b as [b|].
    - destruct (put_some _ _ _ _ _ _ _ _ _ _ _ Ep) as (-> & _ & _). cbn [given1 lost1 out_handler app intake_of fst snd out_bool] in *.
      destruct b; exact F2.
    - destruct (put_none _ _ _ _ _ _ _ _ _ _ Ep) as [_ [(-> & _)|[(-> & _)|((i & k & ->) & _)]]]; exact F2.
  Qed.

  Lemma call_flow o op f g ac e g1 : RInv o ac (s_red (g_sep g)) -> gop_typed op -> fc_not_clear (op, f) -> gf_call ne op f g = Ok (e, g1) ->
    g_enabled g1 = en_after op (g_enabled g) /\ exists ac', RInv o ac' (s_red (g_sep g1)) /\
      let i := if g_enabled g then intake_of (op, f, e) else Nothing in
      flow (held g) ac (ev1 i) (tr1 i) (given1 e ++ popped1 op e ++ lost1 e ++ held g1) ac'.
  Proof.
    intros I HT NC E.
    assert (NI : forall e', (forall x c1 c2, op <> GoAdd x c1 c2) -> (forall x h c1 c2, op <> GoPush x h c1 c2) ->
      (if g_enabled g then intake_of (op, f, e') else Nothing) = Nothing).
    { intros e' H1 H2. destruct (g_enabled g); [|reflexivity]. destruct op; try reflexivity; [elim (H1 x c1 c2 eq_refl)|elim (H2 x h c1 c2 eq_refl)]. }
    destruct op as [x c1 c2|x h c1 c2|ts h force c| | | |v|ts c]; cbn [gf_call en_after popped1 app] in *.
    - destruct HT as [HT HL]. destruct (typed_add _ HT) as [A U]. apply (add_flow o f c1 c2 x); auto. destruct x; auto; contradiction.
    - destruct HT as [HT HL]. destruct (typed_add _ HT) as [A U]. apply (push_flow o f c1 c2 h x); auto. destruct x; auto; contradiction.
    - cbv zeta. rewrite (NI e) by discriminate. clear NI. unfold g_separate_f in E. destruct (h && at_start f).
      { injection E as <- <-. split; [reflexivity|]. exists ac. split; [exact I|apply flow_refl]. }
      destruct (s_separate_f _ _ _ _ _ _ _ _) as [[[[b recs] lost] s]| |] eqn:Es; cbn [bind] in E; try discriminate.
      destruct (separate_flow _ _ _ _ _ _ _ _ _ _ _ _ _ I Es) as (a1 & I1 & F1). apply (flow_frame (g_list g)) in F1.
      assert (F1' : flow (held g) ac 0 [] ((recs ++ lost) ++ held (g_set_sep s g)) a1).
      { eapply flow_perm; [exact F1|reflexivity|]. unfold held; cbn [g_set_sep g_list g_sep]. rewrite <- app_assoc. apply perm4. }
      destruct b as [b|].
      + destruct (separate_some _ _ _ _ _ _ _ _ _ _ _ Es) as [-> _]. rewrite app_nil_r in F1'.
        destruct (g_aggregate0_f _ _ _) as [[e0 g2]| |] eqn:E0; cbn [bind] in E; try discriminate. injection E as <- <-.
        destruct (aggregate0_flow _ _ a1 _ _ E0) as (F2 & R2 & N2). cbn [g_set_sep g_enabled g_sep] in R2, N2. split; [exact N2|].
        exists a1. rewrite R2. split; [exact I1|]. apply (flow_frame recs) in F2.
        pose proof (flow_trans _ _ _ _ _ _ _ _ _ _ F1' F2) as F. destruct e0 as [l|]; exact F.
      + injection E as <- <-. split; [reflexivity|]. exists a1. split; [exact I1|]. rewrite <- app_assoc in F1'. exact F1'.
    - cbv zeta. rewrite (NI e) by discriminate. cbn [g_call] in E. unfold g_pop in E. destruct (g_list g) as [|a t] eqn:El; cbn [bind] in E; injection E as <- <-.
      + split; [reflexivity|]. exists ac. split; [exact I|apply flow_refl].
      + split; [reflexivity|]. exists ac. split; [exact I|]. unfold held. rewrite El. apply flow_refl.
    - cbv zeta. rewrite (NI e) by discriminate. destruct (_ && _ && _).
      { injection E as <- <-. split; [reflexivity|]. exists ac. split; [exact I|apply flow_refl]. }
      cbn [g_call] in E. destruct (g_force_pop ne g) as [[a g2]| |] eqn:Ef; cbn [bind] in E; try discriminate. injection E as <- <-.
      unfold g_force_pop in Ef. destruct (s_force_pop ne (g_sep g)) as [[x s]| |] eqn:Es; cbn [bind] in Ef; try discriminate.
      assert (H : exists ac', RInv o ac' (s_red s) /\ flow (s_list (g_sep g)) ac 0 [] (match x with Some x => [x] | None => [] end ++ s_list s) ac').
      { unfold s_force_pop, s_pop in Es. destruct (s_list (g_sep g)) as [|y t] eqn:El.
        - destruct (r_detach ne (s_red (g_sep g))) as [[d r]| |] eqn:Ed; cbn [bind] in Es; try discriminate.
          pose proof (detach_flow _ _ _ _ _ I Ed) as DF. destruct d as [d|].
          + destruct (chk _) as [tt| |]; cbn [bind] in Es; try discriminate. injection Es as <- <-. destruct DF as [I1 F1]. exists account0.
            split; [exact I1|]. cbn [s_list]. apply F1.
          + injection Es as <- <-. subst r. exists ac. split; [exact I|apply flow_refl].
        - injection Es as <- <-. exists ac. split; [exact I|apply flow_refl]. }
      destruct H as (a1 & I1 & F1). apply (flow_frame (g_list g)) in F1. destruct x as [x|].
      + destruct (g_finish ne (g_out g) x) as [d| |] eqn:Ed; cbn [bind] in Ef; try discriminate. injection Ef as <- <-. split; [reflexivity|].
        exists a1. split; [exact I1|]. cbn [given1 out_handler out_ptr lost1 app]. apply (finish_fun ne Hne) in Ed.
        assert (F2 : flow [x] a1 0 [] [d] a1) by (apply (flow_finished (g_out g)); constructor; [exact Ed|constructor]).
        apply (flow_frame (g_list g ++ s_list s)) in F2. change (flow (held g) ac (0 + 0) ([] ++ []) (d :: held (g_set_sep s g)) a1).
        eapply flow_trans; [eapply flow_perm; [exact F1|reflexivity|]|eapply flow_perm; [exact F2|reflexivity|]].
        * cbn [app]. etransitivity; [symmetry; apply Permutation_middle|]. change (x :: g_list g ++ s_list s) with ([x] ++ g_list g ++ s_list s). apply Permutation_app_comm.
        * etransitivity; [apply Permutation_app_comm|]. reflexivity.
      + injection Ef as <- <-. split; [reflexivity|]. exists a1. split; [exact I1|]. exact F1.
    - cbv zeta. rewrite (NI e) by discriminate. destruct (at_detach f).
      { injection E as <- <-. split; [reflexivity|]. exists ac. split; [exact I|apply flow_refl]. }
      cbn [g_call] in E. destruct (g_current ne g) as [a| |]; cbn [bind] in E; try discriminate. injection E as <- <-.
      split; [reflexivity|]. exists ac. split; [exact I|apply flow_refl].
    - cbv zeta. rewrite (NI e) by discriminate. cbn [g_call bind] in E. injection E as <- <-. split; [reflexivity|].
      exists ac. split; [exact I|apply flow_refl].
    - destruct NC.
  Qed.

  Lemma run_flow o ops : Forall fc_typed ops -> Forall fc_not_clear ops -> forall g ac es g', RInv o ac (s_red (g_sep g)) ->
    gf_run ne g ops = Ok (es, g') ->
    exists ac', RInv o ac' (s_red (g_sep g')) /\
      flow (held g) ac (events (intakes (g_enabled g) ops es)) (tried (intakes (g_enabled g) ops es))
           (gf_given es ++ gf_popped ops es ++ gf_lost es ++ held g') ac'.
  Proof.
    induction ops as [|[op f] ops IH]; intros HT HN g ac es g' I E; cbn [gf_run] in E.
    - injection E as <- <-. exists ac. split; [exact I|apply flow_refl].
    - destruct (gf_call ne op f g) as [[e g1]| |] eqn:E1; cbn [bind] in E; try discriminate.
      destruct (gf_run ne g1 ops) as [[es1 g2]| |] eqn:E2; cbn [bind] in E; try discriminate. injection E as <- <-.
      destruct (call_flow o op f g ac e g1 I (Forall_inv HT) (Forall_inv HN) E1) as (N1 & a1 & I1 & F1). cbv zeta in F1.
      destruct (IH (Forall_inv_tail HT) (Forall_inv_tail HN) g1 a1 es1 g2 I1 E2) as (a2 & I2 & F2). rewrite N1 in F2.
      exists a2. split; [exact I2|].
      apply (flow_frame (given1 e ++ popped1 op e ++ lost1 e)) in F2. rewrite <- !app_assoc in F2.
      pose proof (flow_trans _ _ _ _ _ _ _ _ _ _ F1 F2) as F.
      assert (HD : events (intakes (g_enabled g) (@cons fcall (op, f) ops) (e :: es1)) =
        ev1 (if g_enabled g then intake_of (op, f, e) else Nothing) + events (intakes (en_after op (g_enabled g)) ops es1)).
      { cbn [intakes]. destruct (g_enabled g); reflexivity. }
      assert (HV : tried (intakes (g_enabled g) (@cons fcall (op, f) ops) (e :: es1)) =
        tr1 (if g_enabled g then intake_of (op, f, e) else Nothing) ++ tried (intakes (en_after op (g_enabled g)) ops es1)).
      { cbn [intakes]. destruct (g_enabled g); reflexivity. }
      rewrite HD, HV. eapply flow_perm; [exact F|reflexivity|].
      assert (HG : gf_given (e :: es1) = given1 e ++ gf_given es1) by (destruct e; reflexivity).
      assert (HP : gf_popped (@cons fcall (op, f) ops) (e :: es1) = popped1 op e ++ gf_popped ops es1) by (destruct op, e; reflexivity).
      assert (HL : gf_lost (e :: es1) = lost1 e ++ gf_lost es1) by (destruct e; reflexivity).
      rewrite HG, HP, HL, <- !app_assoc. apply Permutation_app_head.
      etransitivity; [symmetry; apply perm4|]. apply Permutation_app_head. apply Permutation_app_head. apply Permutation_app_swap_app.
  Qed.

  Lemma current_flow o ac g p : RInv o ac (s_red (g_sep g)) -> g_current ne g = Ok p ->
    match p with Some d => ad_count d = u64 (a_declared ac) /\ submultiset (ad_data d) (a_tried ac) | None => a_declared ac = 0 end.
  Proof.
    intros [I S] E. unfold g_current, s_get_current, r_get_reduced in E.
    assert (Ic : AInv o ac (r_clone (s_red (g_sep g)))) by (exact (FI_clone _ _ _ _ _ _ _ I)).
    pose proof (detach_account ne Hne o ac _ Ic) as D. destruct (f64_to_i64 _).
    - destruct D as (d & r' & Ed & D). rewrite Ed in E. cbn [bind] in E. destruct (a_seen ac).
      + destruct D as (_ & y & -> & R). destruct (chk _) as [t| |]; cbn [bind] in E; try discriminate.
        destruct (g_finish _ _ _) as [x| |] eqn:Ef; cbn [bind] in E; try discriminate. injection E as <-.
        apply (finish_fun ne Hne) in Ef. destruct R as (R1 & _ & _ & _ & R5 & _). split.
        * unfold ad_count. rewrite (proj1 Ef). exact R1.
        * eapply submultiset_trans; [exact (finished_sub _ _ _ Ef)|exact R5].
      + destruct D as (-> & _). cbn [bind] in E. injection E as <-. auto.
    - destruct (a_seen ac); rewrite D in E; [discriminate|]. cbn [bind] in E. injection E as <-. auto.
    - contradiction.
  Qed.
  Lemma new_rinv o c rnd ts g : agg_new o c rnd ts = Ok g -> RInv (so_red (ao_sep o)) account0 (s_red (g_sep g)) /\ held g = [] /\ g_enabled g = true.
  Proof.
    unfold agg_new, sep_new. destruct (get_ts _ _ _ _) as [t| |]; cbn [bind]; try discriminate.
    destruct (if negb _ then _ else _) as [t1| |]; cbn [bind]; try discriminate. destruct (chk _) as [n| |]; cbn [bind]; try discriminate.
    intros E; injection E as <-. split; [|split; reflexivity]. split; [|reflexivity]. exact (FI_new _).
  Qed.

  (** * What a failure leaves *)
  Lemma call_ret op f g o g1 : gf_call ne op f g = Ok (GRet o, g1) -> g_call ne op g = Ok (o, g1).
  Proof.
    assert (ADD : forall x c1 c2 g o g1, not_list x -> g_add_f ne f c1 c2 (sm_ts x) (sm_op x) g = Ok (GRet o, g1) ->
      g_call ne (GoAdd x c1 c2) g = Ok (o, g1)).
    { clear. intros x c1 c2 g o g1 NL E. unfold g_add_f in E.
      assert (H : (b <- g_add_with ne (s_put ne c1 c2 (sm_ts x) false (addf_of x)) g ;; let '(b, g') := b in Ok (mk_sout (Some b) [] None, g')) = Ok (o, g1) ->
        g_call ne (GoAdd x c1 c2) g = Ok (o, g1)) by (destruct x; cbn [not_list] in NL; try contradiction; exact (fun H => H)).
      apply H. clear H. unfold g_add_with. destruct (negb (g_enabled g)); [injection E as <- <-; reflexivity|].
      destruct (s_put_f _ _ _ _ _ _ _ _) as [[[[b recs] lost] s]| |] eqn:Ep; cbn [bind] in E; try discriminate. destruct b as [b|]; [|discriminate].
      destruct (put_some _ _ _ _ _ _ _ _ _ _ _ Ep) as (_ & Es & _). rewrite Es. cbn [bind]. destruct b; cbn [negb].
      - destruct (g_aggregate0_f _ _ _) as [[[l|] g2]| |] eqn:E0; cbn [bind] in E; try discriminate. injection E as <- <-.
        rewrite (aggregate0_none _ _ _ E0). reflexivity.
      - injection E as <- <-. reflexivity. }
    destruct op as [x c1 c2|x h c1 c2|ts h force c| | | |v|ts c]; cbn [gf_call]; intros E.
    - destruct x; try discriminate; (eapply ADD; [exact I|exact E]).
    - assert (NL : not_list x) by (destruct x; [exact I|exact I|discriminate|exact I]).
      assert (E' : g_push_f ne f c1 c2 (sm_ts x) h (sm_op x) g = Ok (GRet o, g1)) by (destruct x; try discriminate; exact E). clear E.
      unfold g_push_f in E'. destruct (h && at_start f); [discriminate|].
      assert (H : (q <- g_push_with ne (s_put ne c1 c2 (sm_ts x) false (addf_of x)) (s_put ne c1 c2 (sm_ts x) true (addf_of x)) h g ;;
                   let '(b, recs, g') := q in Ok (mk_sout (Some b) recs None, g')) = Ok (o, g1) ->
        g_call ne (GoPush x h c1 c2) g = Ok (o, g1)) by (destruct x; cbn [not_list] in NL; try contradiction; exact (fun H => H)).
      apply H. clear H. unfold g_push_with. destruct (negb (g_enabled g)) eqn:En; [injection E' as <- <-; reflexivity|].
      destruct h; cbn [negb] in *.
      + destruct (s_put_f _ _ _ _ _ _ _ _) as [[[[b recs] lost] s]| |] eqn:Ep; cbn [bind] in E'; try discriminate.
        destruct (g_finish_all _ _ _) as [ds| |] eqn:Ef; cbn [bind] in E'; try discriminate. destruct b as [b|]; [|discriminate]. injection E' as <- <-.
        destruct (put_some _ _ _ _ _ _ _ _ _ _ _ Ep) as (_ & Es & _). rewrite Es. cbn [bind]. rewrite Ef. reflexivity.
      + apply ADD in E'; [|exact NL].
        assert (H : g_call ne (GoAdd x c1 c2) g = (b <- g_add_with ne (s_put ne c1 c2 (sm_ts x) false (addf_of x)) g ;; let '(b, g') := b in Ok (mk_sout (Some b) [] None, g')))
          by (destruct x; cbn [not_list] in NL; try contradiction; reflexivity).
        rewrite H in E'. destruct (g_add_with _ _ _) as [[b g2]| |]; cbn [bind] in *; try discriminate. exact E'.
    - unfold g_separate_f in E. destruct (h && at_start f); [discriminate|]. cbn [g_call]. unfold g_separate.
      destruct (s_separate_f _ _ _ _ _ _ _ _) as [[[[b recs] lost] s]| |] eqn:Es; cbn [bind] in E; try discriminate. destruct b as [b|]; [|discriminate].
      destruct (separate_some _ _ _ _ _ _ _ _ _ _ _ Es) as [_ ->]. cbn [bind].
      destruct (g_aggregate0_f _ _ _) as [[[l|] g2]| |] eqn:E0; cbn [bind] in E; try discriminate. injection E as <- <-.
      rewrite (aggregate0_none _ _ _ E0). reflexivity.
    - destruct (g_call _ _ _) as [[o1 g2]| |]; cbn [bind] in E; try discriminate. injection E as <- <-; reflexivity.
    - destruct (_ && _ && _); [discriminate|]. destruct (g_call _ _ _) as [[o1 g2]| |]; cbn [bind] in E; try discriminate. injection E as <- <-; reflexivity.
    - destruct (at_detach f); [discriminate|]. destruct (g_call _ _ _) as [[o1 g2]| |]; cbn [bind] in E; try discriminate. injection E as <- <-; reflexivity.
    - destruct (g_call _ _ _) as [[o1 g2]| |]; cbn [bind] in E; try discriminate. injection E as <- <-; reflexivity.
    - destruct (g_call _ _ _) as [[o1 g2]| |]; cbn [bind] in E; try discriminate. injection E as <- <-; reflexivity.
  Qed.
  Lemma set_same g : g_set_sep (g_sep g) g = g.
  Proof. destruct g; reflexivity. Qed.
  (** A call that threw. *)
  Lemma call_threw op f g recs lost g1 : gf_call ne op f g = Ok (GThrew recs lost, g1) ->
    (up_front f = true /\ recs = [] /\ lost = [] /\ g1 = g) \/
    (in_transit f = true /\ exists d, lost = [d]) \/
    ((exists i k, f = Some (GfValue i k)) /\ lost = []).
  Proof.
    assert (ADD : forall x c1 c2, g_add_f ne f c1 c2 (sm_ts x) (sm_op x) g = Ok (GThrew recs lost, g1) ->
      (up_front f = true /\ recs = [] /\ lost = [] /\ g1 = g) \/ (in_transit f = true /\ exists d, lost = [d]) \/
      ((exists i k, f = Some (GfValue i k)) /\ lost = [])).
    { intros x c1 c2 E. unfold g_add_f in E. destruct (negb (g_enabled g)); [discriminate|].
      destruct (s_put_f _ _ _ _ _ _ _ _) as [[[[b rc] lo] s]| |] eqn:Ep; cbn [bind] in E; try discriminate. destruct b as [[|]|].
      - destruct (g_aggregate0_f _ _ _) as [[[l|] g2]| |] eqn:E0; cbn [bind] in E; try discriminate. injection E as <- <- <-.
        destruct (aggregate0_some _ _ _ _ E0) as (n & d & En & ->). right. left. destruct f as [[| | | |]|]; try discriminate. split; [reflexivity|eauto].
      - discriminate.
      - injection E as <- <- <-. destruct (put_none _ _ _ _ _ _ _ _ _ _ Ep) as [_ [(-> & -> & -> & ->)|[(-> & -> & H)|(H & ->)]]].
        + left. rewrite set_same. auto.
        + right. left. auto.
        + right. right. auto. }
    destruct op as [x c1 c2|x h c1 c2|ts h force c| | | |v|ts c]; cbn [gf_call]; intros E.
    - destruct x; try discriminate; (eapply ADD; exact E).
    - assert (E' : g_push_f ne f c1 c2 (sm_ts x) h (sm_op x) g = Ok (GThrew recs lost, g1)) by (destruct x; try discriminate; exact E). clear E.
      unfold g_push_f in E'. destruct (h && at_start f) eqn:Es.
      { injection E' as <- <- <-. left. apply andb_true_iff in Es as [_ Es]. destruct f as [[| | | |]|]; try discriminate. auto. }
      destruct (negb (g_enabled g)); [discriminate|]. destruct h; cbn [negb] in E'; [|exact (ADD _ _ _ E')].
      destruct (s_put_f _ _ _ _ _ _ _ _) as [[[[b rc] lo] s]| |] eqn:Ep; cbn [bind] in E'; try discriminate.
      destruct (g_finish_all _ _ _) as [ds| |] eqn:Ef; cbn [bind] in E'; try discriminate. destruct b as [b|]; [discriminate|]. injection E' as <- <- <-.
      destruct (put_none _ _ _ _ _ _ _ _ _ _ Ep) as [_ [(-> & -> & -> & ->)|[(-> & -> & H)|(H & ->)]]].
      + cbn in Ef. injection Ef as <-. left. rewrite set_same. auto.
      + right. left. auto.
      + right. right. auto.
    - unfold g_separate_f in E. destruct (h && at_start f) eqn:Es.
      { injection E as <- <- <-. left. apply andb_true_iff in Es as [_ Es]. destruct f as [[| | | |]|]; try discriminate. auto. }
      destruct (s_separate_f _ _ _ _ _ _ _ _) as [[[[b rc] lo] s]| |] eqn:Ep; cbn [bind] in E; try discriminate. destruct b as [b|].
      + destruct (g_aggregate0_f _ _ _) as [[[l|] g2]| |] eqn:E0; cbn [bind] in E; try discriminate. injection E as <- <- <-.
        destruct (aggregate0_some _ _ _ _ E0) as (n & d & En & ->). right. left. destruct f as [[| | | |]|]; try discriminate. split; [reflexivity|eauto].
      + injection E as <- <- <-. destruct (separate_none _ _ _ _ _ _ _ _ _ _ Ep) as [-> [(Ed & -> & -> & _)|(_ & Eq & H)]].
        * left. rewrite set_same. destruct f as [[| | | |]|]; try discriminate. auto.
        * right. left. split; [|exact H]. apply andb_true_iff in Eq as [_ Eq]. destruct f as [[| | | |]|]; try discriminate. reflexivity.
    - destruct (g_call _ _ _) as [[o1 g2]| |]; cbn [bind] in E; discriminate.
    - destruct (_ && _ && _) eqn:Eb.
      + injection E as <- <- <-. left. apply andb_true_iff in Eb as [Eb _]. apply andb_true_iff in Eb as [Eb _].
        destruct f as [[| | | |]|]; try discriminate. auto.
      + destruct (g_call _ _ _) as [[o1 g2]| |]; cbn [bind] in E; discriminate.
    - destruct (at_detach f) eqn:Eb.
      + injection E as <- <- <-. left. destruct f as [[| | | |]|]; try discriminate. auto.
      + destruct (g_call _ _ _) as [[o1 g2]| |]; cbn [bind] in E; discriminate.
    - destruct (g_call _ _ _) as [[o1 g2]| |]; cbn [bind] in E; discriminate.
    - destruct (g_call _ _ _) as [[o1 g2]| |]; cbn [bind] in E; discriminate.
  Qed.
  (** No failure: an ordinary call. *)
  Lemma loop_plain fuel : forall step ts next r,
    sep_loop_f ne false false fuel step ts next r = ('(recs, r2, n2) <- sep_loop ne fuel step ts next r ;; Ok (recs, None, r2, n2)).
  Proof.
    induction fuel as [|fuel IH]; intros step ts next r; cbn [sep_loop_f sep_loop andb]; destruct (next <=? ts); try reflexivity.
    destruct (r_detach ne r) as [[[x|] r1]| |]; cbn [bind]; try reflexivity.
    - destruct (chk (next - step)) as [t| |]; cbn [bind]; try reflexivity. cbv zeta.
      destruct (chk (next + step)) as [n1| |]; cbn [bind]; try reflexivity. rewrite IH.
      destruct (sep_loop _ _ _ _ _ _) as [[[rc r3] n3]| |]; reflexivity.
    - destruct (chk (next + step)) as [n1| |]; cbn [bind]; try reflexivity. rewrite IH.
      destruct (sep_loop _ _ _ _ _ _) as [[[rc r3] n3]| |]; reflexivity.
  Qed.
  Lemma separate_plain c ts h force s :
    s_separate_f ne false false c ts h force s = ('(b, recs, s1) <- s_separate ne c ts h force s ;; Ok (Some b, recs, [], s1)).
  Proof.
    unfold s_separate_f, s_separate. destruct (get_ts _ _ _ _) as [t1| |]; cbn [bind]; try reflexivity. destruct (_ && _); [reflexivity|].
    rewrite loop_plain. destruct (sep_loop _ _ _ _ _ _) as [[[rc r3] n3]| |]; reflexivity.
  Qed.
  Lemma put_plain c1 c2 ts h x s :
    s_put_f ne None c1 c2 ts h (sm_op x) s = ('(b, recs, s1) <- s_put ne c1 c2 ts h (addf_of x) s ;; Ok (Some b, recs, [], s1)).
  Proof.
    unfold s_put_f, s_put. destruct (get_ts _ _ _ _) as [t1| |]; cbn [bind]; try reflexivity. cbn [at_detach at_queue at_value]. rewrite separate_plain.
    destruct (s_separate _ _ _ _ _ _) as [[[b rc] s1]| |]; cbn [bind]; try reflexivity. destruct (chk _); cbn [bind]; try reflexivity.
    destruct (_ <? _); [reflexivity|]. destruct x; reflexivity.
  Qed.
  Lemma call_plain op g : gf_call ne op None g = ('(o, g1) <- g_call ne op g ;; Ok (GRet o, g1)).
  Proof.
    assert (ADD : forall x c1 c2, g_add_f ne None c1 c2 (sm_ts x) (sm_op x) g =
      ('(b, g') <- g_add_with ne (s_put ne c1 c2 (sm_ts x) false (addf_of x)) g ;; Ok (GRet (mk_sout (Some b) [] None), g'))).
    { intros x c1 c2. unfold g_add_f, g_add_with. destruct (negb (g_enabled g)); [reflexivity|]. rewrite put_plain.
      destruct (s_put _ _ _ _ _ _ _) as [[[b rc] s1]| |]; cbn [bind]; try reflexivity. destruct b; cbn [negb]; [|reflexivity].
      unfold g_aggregate0_f. cbn [at_ag]. cbv zeta. destruct (g_aggregate0_ _ _); reflexivity. }
    destruct op as [x c1 c2|x h c1 c2|ts h force c| | | |v|ts c]; cbn [gf_call at_detach andb]; try reflexivity.
    - destruct x; cbn [g_call]; try reflexivity; rewrite ADD; unfold g_add, g_add_arr, g_add_red, s_add, s_add_arr, s_add_red; cbn [sm_ts addf_of];
        destruct (g_add_with _ _ _) as [[b g']| |]; reflexivity.
    - assert (PU : forall x, g_push_f ne None c1 c2 (sm_ts x) h (sm_op x) g =
        ('(b, recs, g') <- g_push_with ne (s_put ne c1 c2 (sm_ts x) false (addf_of x)) (s_put ne c1 c2 (sm_ts x) true (addf_of x)) h g ;;
         Ok (GRet (mk_sout (Some b) recs None), g'))).
      { intros y. unfold g_push_f, g_push_with. cbn [at_start]. rewrite andb_false_r. destruct (negb (g_enabled g)) eqn:En; [reflexivity|].
        destruct (negb h) eqn:Eh.
        - rewrite ADD. destruct (g_add_with _ _ _) as [[b g']| |]; reflexivity.
        - rewrite put_plain. destruct (s_put _ _ _ _ _ _ _) as [[[b rc] s1]| |]; cbn [bind]; try reflexivity.
          destruct (g_finish_all _ _ _); reflexivity. }
      destruct x; cbn [g_call]; try reflexivity; rewrite PU; unfold g_push, g_push_arr, g_push_red, s_add, s_add_arr, s_add_red, s_push, s_push_arr, s_push_red;
        cbn [sm_ts addf_of]; destruct (g_push_with _ _ _ _ _) as [[[b rc] g']| |]; reflexivity.
    - unfold g_separate_f. cbn [at_start at_detach at_queue at_ag]. rewrite !andb_false_r, separate_plain. cbn [g_call]. unfold g_separate.
      destruct (s_separate _ _ _ _ _ _) as [[[b rc] s1]| |]; cbn [bind]; try reflexivity.
      unfold g_aggregate0_f. cbv zeta. destruct (g_aggregate0_ _ _); reflexivity.
  Qed.
End T.
