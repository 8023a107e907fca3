(** What is known of one aggregator, for the aggregators behind a name of a program. *)
From Coq Require Import ZArith List Bool Permutation Sorted Lia Arith Ascii.
From Verif Require Import Base ModelTypes ModelAvg ModelReducer SpecReducer ModelSeparator SpecSeparator ModelAggregator SpecAggregator
  SepProofs SepSpecProofs SepRun SepSafe AggProofs AggRun AggFinal WindowProofs ModelRegistry SpecRegistry RegProofs RegFinal
  ModelComposite ModelMeters ModelSystem SpecSystem SystemProofs SystemRun SystemFinal.
Import ListNotations.
Local Open Scope Z_scope.

Lemma subseq_perm {A} (a b : list A) : subseq a b -> exists rest, Permutation (a ++ rest) b.
Proof.
  induction 1 as [|x l m H (r & IH)|x l m H (r & IH)]; [exists []; auto|exists r; simpl; auto|exists (x :: r)].
  rewrite <- IH. symmetry. apply Permutation_middle.
Qed.
Lemma subseq_trans {A} (a b c : list A) : subseq a b -> subseq b c -> subseq a c.
Proof. intros H K. revert a H. induction K; intros a H; auto; [inversion H; subst; constructor; auto|constructor; auto]. Qed.
Lemma subseq_forall {A} (P : A -> Prop) a b : subseq a b -> Forall P b -> Forall P a.
Proof. induction 1; intros H1; auto; inversion H1; subst; auto. Qed.
(** groups of images are images of groups *)
Lemma unflat {A B} (f : A -> B) : forall (gs : list (list B)) l, concat gs = map f l -> exists hs, gs = map (map f) hs /\ concat hs = l.
Proof.
  induction gs as [|g gs IH]; intros l E; simpl in E.
  - destruct l; [|discriminate]. exists []. auto.
  - symmetry in E. apply map_eq_app in E as (l1 & l2 & -> & E1 & E2). destruct (IH l2 (eq_sym E2)) as (hs & -> & <-).
    exists (l1 :: hs). split; [simpl; now rewrite E1|reflexivity].
Qed.

Lemma call_add_ptr ne x c1 c2 g r g1 : g_call ne (GoAdd x c1 c2) g = Ok (r, g1) -> out_ptr r = None.
Proof. cbn [g_call]. intros E. destruct (match x with SmScalar ts v c => _ | _ => _ end) as [[b g2]| |]; cbn [bind] in E; try discriminate. now injection E as <- _. Qed.
Lemma call_push_ptr ne x h c1 c2 g r g1 : g_call ne (GoPush x h c1 c2) g = Ok (r, g1) -> out_ptr r = None.
Proof. cbn [g_call]. intros E. destruct (match x with SmScalar ts v c => _ | _ => _ end) as [[[b l] g2]| |]; cbn [bind] in E; try discriminate. now injection E as <- _. Qed.
Lemma call_sep_ptr ne ts h f c g r g1 : g_call ne (GoSeparate ts h f c) g = Ok (r, g1) -> out_ptr r = None.
Proof. cbn [g_call]. intros E. destruct (g_separate ne c ts h f g) as [[[b l] g2]| |]; cbn [bind] in E; try discriminate. now injection E as <- _. Qed.

Section Life.
  Variable ne : nat -> list Z -> list Z.
  Hypothesis Hne : nth_element_ok ne.
  Variable ao : aopts.
  Let step := so_step (ao_sep ao).
  Let res := so_res (ao_sep ao).
  Let red := so_red (ao_sep ao).
  Hypothesis Hs : 0 < step.

  Lemma late_coherent x c1 c2 : step <= sm_ts x ->
    acc_time step res c1 (sm_ts x) = truncated step (sm_ts x) /\ adv_time step res c1 c2 (sm_ts x) = acc_time step res c1 (sm_ts x).
  Proof.
    intros H. assert (A : acc_time step res c1 (sm_ts x) = truncated step (sm_ts x)).
    { unfold acc_time, given_time. destruct (Z.eqb_spec (sm_ts x) 0); [lia|]. reflexivity. }
    split; auto. unfold adv_time. rewrite A. pose proof (trunc_pos step (sm_ts x) Hs H).
    unfold given_time. destruct (Z.eqb_spec (truncated step (sm_ts x)) 0); [lia|]. simpl. apply trunc_idem. lia.
  Qed.

  Lemma d_run l0 ops : Forall gop_typed ops -> Forall life_op ops -> Forall (gcoherent step res) ops -> forall g a t outs g',
    ASim ne red (ao_out ao) step res g a -> TInv l0 step a t -> g_run ne g ops = Ok (outs, g') ->
    exists a' t' td, ASim ne red (ao_out ao) step res g' a' /\ TInv l0 step a' t' /\
      Forall2 (fun q d => drel ne red (ao_out ao) (untime q) d) td (deliveries ops outs) /\ Forall (tg_ok l0 step) td /\
      Permutation (tall td ++ theld t') (theld t ++ recorded step res (as_en a) ops (map out_bool outs)).
  Proof.
    induction ops as [|op ops IH]; intros HT HL HC g a t outs g' AS TI E; cbn [g_run] in E.
    - injection E as <- <-. exists a, t, []. simpl. rewrite app_nil_r. auto 10.
    - destruct (g_call ne op g) as [[r1 g1]| |] eqn:E1; cbn [bind] in E; try discriminate.
      destruct (g_run ne g1 ops) as [[rs g2]| |] eqn:E2; cbn [bind] in E; try discriminate. injection E as <- <-.
      pose proof (gcall_sim ne Hne red (ao_out ao) step res g a op r1 g1 Hs AS (Forall_inv HT) E1) as C.
      destruct (aspec_call step res op a) as [so a1] eqn:EA. destruct C as [(C1 & C2 & C3) AS1].
      pose proof (Forall_inv HL) as HL1. pose proof (Forall_inv HC) as HC1.
      assert (HN : gnot_clear op) by (destruct op; simpl in *; auto).
      destruct (t_call l0 step res Hs op a t so a1 HN HC1 TI EA) as (t1 & th & tp & T1 & H1 & F1 & H2 & F2 & P).
      destruct (IH (Forall_inv_tail HT) (Forall_inv_tail HL) (Forall_inv_tail HC) g1 a1 t1 rs g2 AS1 T1 E2) as (a' & t' & td & AS2 & T2 & FD & FT & P2).
      exists a', t', ((th ++ tp) ++ td). split; auto. split; auto. split; [|split].
      + cbn [deliveries]. rewrite app_assoc. apply Forall2_app; auto. apply Forall2_app.
        * assert (W : match op with GoSeparate _ _ _ _ => po_handler so = [] | _ => True end).
          { destruct op; auto. simpl in HL1. destruct HL1 as [-> ->]. cbn [aspec_call spec_call] in EA. unfold spec_deliver in EA. cbn [fst snd] in EA. injection EA as <- _. auto. }
          apply (Forall2_untime (drel ne red (ao_out ao))). rewrite <- H1.
          destruct op; auto. rewrite W. constructor.
        * apply (Forall2_untime (drel ne red (ao_out ao))). rewrite <- H2. clear - C3 HL1 E1 EA Hne.
          destruct op; simpl in HL1; try contradiction; cbn [pop1]; try (destruct (po_ptr so), (out_ptr r1); try contradiction; repeat constructor; auto; fail).
          -- rewrite call_add_ptr with (1 := E1). constructor.
          -- rewrite call_push_ptr with (1 := E1). constructor.
          -- rewrite call_sep_ptr with (1 := E1). constructor.
          -- cbn [g_call] in E1. injection E1 as <- _. constructor.
      + apply Forall_app. split; auto. apply Forall_app. auto.
      + rewrite tall_app, tall_app, <- !app_assoc. cbn [map]. rewrite recorded_rec1. rewrite (as_en_call _ _ _ _ _ _ EA) in P2.
        rewrite (app_assoc (theld t)), <- C1, <- P. rewrite <- !app_assoc. do 2 apply Permutation_app_head. exact P2.
  Qed.

  (** ** Groups of samples *)
  Definition dated (d : adata) (x : sample) : Prop :=
    ad_ts d <= sm_ts x < ad_ts d + 2 * step /\ (so_soiled (ao_sep ao) = 0 -> sm_ts x < ad_ts d + step).
  Definition told (g : list sample) (d : adata) : Prop :=
    delivery_of ne red (ao_out ao) (ad_ts d) (map sm_op g) d /\ g <> [] /\ Forall (dated d) g.

  Lemma recorded_subseq ops : forall en bs, Forall (fun op => Forall (fun x => step <= sm_ts x) (op_smp op)) ops ->
    subseq (recorded step res en ops bs) (map (fun x => (truncated step (sm_ts x), sm_op x)) (flat_map op_smp ops)).
  Proof.
    induction ops as [|op ops IH]; intros en bs H; [destruct bs; constructor|]. destruct bs as [|b bs]; [apply subseq_none|].
    inversion H as [|? ? H1 H2]; subst. cbn [recorded flat_map]. rewrite map_app. apply subseq_app; auto.
    assert (K : forall x c1, step <= sm_ts x -> acc_time step res c1 (sm_ts x) = truncated step (sm_ts x)) by (intros x c1 L; apply (late_coherent x c1 0 L)).
    destruct op; try apply subseq_none; (destruct b as [[|]|]; [|apply subseq_none|apply subseq_none]); (destruct en; [|apply subseq_none]);
      rewrite (K _ _ (Forall_inv H1)); apply subseq_refl.
  Qed.
  Lemma fin_ts w g d : delivery_of ne red (ao_out ao) w g d -> ad_ts d = w.
  Proof. intros (a & (ops & a0 & _ & _ & _ & ->) & F). destruct F as (F1 & _). unfold ad_ts. rewrite F1. reflexivity. Qed.
  Lemma new_label c rnd now g0 : agg_new ao c rnd now = Ok g0 -> so_soiled (ao_sep ao) = 0 -> exists k, agg_label g0 = k * step.
  Proof.
    unfold agg_new, sep_new, agg_label, sep_label. intros E Z0. rewrite Z0 in E. simpl in E.
    destruct (get_ts _ _ _ _) as [t| |] eqn:ET; cbn [bind] in E; try discriminate. destruct (chk (t + so_step (ao_sep ao))) as [nx| |] eqn:EN; cbn [bind] in E; try discriminate.
    apply chk_ok in EN as [-> _]. injection E as <-. simpl. unfold get_ts in ET. fold step in ET |- *.
    destruct (step =? 0); [discriminate|]. destruct (chk (Z.quot _ _)) as [q| |]; cbn [bind] in ET; try discriminate. apply chk_ok in ET as [-> _]. exists q. lia.
  Qed.

  Lemma life_windows l : Forall gop_typed (lf_ops l) -> Forall life_op (lf_ops l) -> (exists g, lived ne ao l g) ->
    Forall (fun x => step <= sm_ts x) (life_samples l) ->
    exists groups rest, Forall2 told groups (life_records l) /\ Permutation (concat groups ++ rest) (life_samples l).
  Proof.
    intros HT HL (g & g0 & EN & ER) HX.
    assert (HO : Forall (fun op => Forall (fun x => step <= sm_ts x) (op_smp op)) (lf_ops l)).
    { unfold life_samples in HX. revert HX. generalize (lf_ops l). intros ops. induction ops as [|op ops IH]; intros HX; constructor; simpl in HX; apply Forall_app in HX as [HX1 HX2]; auto. }
    assert (HC : Forall (gcoherent step res) (lf_ops l)).
    { eapply Forall_impl; [|exact HO]. intros op H. destruct op; simpl; auto; apply (late_coherent x _ _ (Forall_inv H)). }
    pose proof (new_asim ne ao _ _ _ _ Hs EN) as AS.
    assert (TI : TInv (agg_label g0) step (mk_as (mk_spec (agg_label g0) [] []) [] true) ([], [], [])).
    { split; auto. split; [constructor|]. split; auto. split; auto. split; [exists 0; simpl; lia|]. split; constructor. }
    destruct (d_run (agg_label g0) (lf_ops l) HT HL HC g0 _ _ _ g AS TI ER) as (a' & t' & td & _ & _ & FD & FT & P).
    cbn [as_en] in P. unfold theld at 2 in P. cbn [fst snd] in P. simpl in P.
    pose proof (recorded_subseq (lf_ops l) true (map out_bool (lf_outs l)) HO) as SB.
    destruct (subseq_perm _ _ SB) as (rest & P2). rewrite <- P, <- app_assoc in P2.
    change (flat_map op_smp (lf_ops l)) with (life_samples l) in P2.
    apply Permutation_map_inv in P2 as (xs & EX & PX).
    assert (EX' : concat (map snd td ++ [theld t' ++ rest]) = map (fun x => (truncated step (sm_ts x), sm_op x)) xs).
    { rewrite <- EX, concat_app. simpl. rewrite app_nil_r. f_equal. unfold tall. now rewrite flat_map_concat_map. }
    apply unflat in EX' as (hs & E1 & E2). symmetry in E1. apply map_eq_app in E1 as (hg & hr & -> & E3 & E4).
    exists hg, (concat hr). split.
    - rewrite <- E2 in PX. assert (HX2 : Forall (fun x => step <= sm_ts x) (concat hg)).
      { eapply Permutation_Forall in HX; [|exact PX]. rewrite concat_app in HX. now apply Forall_app in HX. }
      clear - FD FT E3 HX2 EN Hs res. unfold life_records in *. revert hg E3 HX2. revert FT. induction FD as [|q d td ds D _ IH]; intros FT hg E3 HX2.
      + destruct hg; [constructor|discriminate].
      + destruct hg as [|h hg]; [discriminate|]. cbn [map] in E3. injection E3 as E3 E4. inversion FT as [|? ? [T1 T2] T3]; subst. cbn [concat] in HX2. apply Forall_app in HX2 as [HX1 HX2].
        constructor; [|apply IH; auto]. unfold drel, untime in D. cbn [fst snd] in D. rewrite <- E3, map_map in D. pose proof (fin_ts _ _ _ D) as W. cbn [fst snd] in D.
        rewrite <- E3 in T1, T2. split; [rewrite W; exact D|]. split; [intros ->; now apply T1|].
        rewrite Forall_map in T2. rewrite Forall_forall in *. intros x Hx. specialize (T2 x Hx). specialize (HX1 x Hx). cbv beta in HX1. unfold in_window in T2. cbn [fst] in T2.
        unfold dated. rewrite W, <- T2. pose proof (new_label _ _ _ _ EN) as NL.
        assert (TR : truncated step (sm_ts x) <= sm_ts x < truncated step (sm_ts x) + step).
        { unfold truncated. rewrite Z.quot_div_nonneg by lia. pose proof (Z.div_mod (sm_ts x) step ltac:(lia)). pose proof (Z.mod_pos_bound (sm_ts x) step Hs). lia. }
        assert (WR : window_of (agg_label g0) step (truncated step (sm_ts x)) <= truncated step (sm_ts x) < window_of (agg_label g0) step (truncated step (sm_ts x)) + step).
        { unfold window_of. set (u := truncated step (sm_ts x) - agg_label g0). pose proof (Z.div_mod u step ltac:(lia)). pose proof (Z.mod_pos_bound u step Hs). lia. }
        split; [lia|]. intros Z0. destruct (NL Z0) as (k & NK).
        enough (window_of (agg_label g0) step (truncated step (sm_ts x)) = truncated step (sm_ts x)) by lia.
        unfold window_of. rewrite NK. unfold truncated at 1. rewrite <- Z.mul_sub_distr_r, Z.div_mul by lia. unfold truncated. lia.
    - rewrite PX, <- E2, concat_app. reflexivity.
  Qed.

  Lemma lives_windows lives : Forall (life_good ne ao) lives -> Forall (fun x => step <= sm_ts x) (flat_map life_samples lives) ->
    exists groups rest, Forall2 told groups (flat_map life_records lives) /\ Permutation (concat groups ++ rest) (flat_map life_samples lives).
  Proof.
    induction 1 as [|l lives (H1 & H2 & H3) _ IH]; intros HX; [exists [], []; split; constructor|]. cbn [flat_map] in *. apply Forall_app in HX as [HX1 HX2].
    destruct (life_windows l H1 H2 H3 HX1) as (g1 & r1 & F1 & P1). destruct (IH HX2) as (g2 & r2 & F2 & P2).
    exists (g1 ++ g2), (r1 ++ r2). split; [now apply Forall2_app|]. rewrite <- P1, <- P2, concat_app, <- !app_assoc. apply Permutation_app_head.
    rewrite !app_assoc. apply Permutation_app_tail. apply Permutation_app_comm.
  Qed.
End Life.

Section Prog.
  Variable ne : nat -> list Z -> list Z.
  Hypothesis Hne : nth_element_ok ne.
  Variable o : rgopts.
  Hypothesis Hs : 0 < so_step (ao_sep (rgo_agg o)).
  Hypothesis Hi : rgo_initializer o = false.
  Variable n : name.
  Hypothesis Hn : n <> [].

  Lemma prog_lives h ops log s : fits o (list_sum (map creations ops)) -> Forall (y_public o) ops ->
    y_run ne (y_new o h) ops = Ok (log, s) -> Forall ev_typed log ->
    exists lives, Forall (life_good ne (rgo_agg o)) lives /\ got n log = flat_map life_records lives /\
      subseq (flat_map life_samples lives) (samples n [] log) /\
      (forall id sn g, registered (y_reg s) n id sn g -> exists past l, lives = past ++ [l] /\ lived ne (rgo_agg o) l g).
  Proof.
    intros F HP E HT. destruct (run_ok ne Hne o Hs Hi n Hn false false h ops log s) as (k & T & H); auto; try discriminate.
    destruct (sys_cell ne o n _ _ _ _ _ _ _ _ _ _ H) as (c & _ & HA & ((lives & L1 & L2 & L3 & L4 & _) & _) & _).
    exists lives. split; auto. split; auto. split; auto. intros id sn g R. destruct (y_alive s) eqn:A.
    - specialize (HA eq_refl). destruct H as (_ & H). rewrite A in H. destruct H as ((I0 & Hk & _) & _).
      apply (registered_slot o _ F k _ _ _ _ _ I0 Hk) in R as [_ R]. unfold aggof in HA. rewrite R in HA. subst c. exact L4.
    - destruct (new_inv o h) as [W0 O0]. destruct (run_inv ne ops _ _ _ W0 O0 E) as [_ O1]. specialize (O1 A).
      destruct R as (_ & _ & pos & R). apply get_some in R. rewrite O1 in R. destruct pos; discriminate.
  Qed.
  Lemma prog_one h ops log s : fits o (list_sum (map creations ops)) -> Forall (y_public o) ops -> Forall (kept n) ops ->
    forward (so_step (ao_sep (rgo_agg o))) (flat_map (times o n) ops) ->
    y_run ne (y_new o h) ops = Ok (log, s) -> Forall ev_typed log ->
    (samples n [] log = [] /\ got n log = [] /\ forall id sn g, ~ registered (y_reg s) n id sn g) \/
    exists l id sn g, registered (y_reg s) n id sn g /\ Forall gop_typed (lf_ops l) /\ Forall life_op (lf_ops l) /\ lived ne (rgo_agg o) l g /\
      got n log = life_records l /\ samples n [] log = life_samples l.
  Proof.
    intros F HP HK HF E HT. destruct (run_ok ne Hne o Hs Hi n Hn true false h ops log s) as (k & T & H); auto; try discriminate.
    destruct (sys_cell ne o n _ _ _ _ _ _ _ _ _ _ H) as (c & _ & HA & ((lives & L1 & L2 & L3 & L4 & L5) & _) & _).
    assert (A : y_alive s = true). { destruct H as (_ & H). destruct (y_alive s); auto. destruct H; discriminate. }
    specialize (HA A). destruct H as (_ & H). rewrite A in H. destruct H as ((I0 & Hk & _) & _). destruct (L5 eq_refl) as (L6 & L7 & L8).
    unfold aggof in HA. destruct (slot o (y_reg s) n) as [[[id sn] g]|] eqn:ES; subst c.
    - right. destruct L4 as (past & l & EL & LV). rewrite EL in *. destruct past as [|x past]; [|rewrite app_length in L7; simpl in L7; lia]. cbn [app flat_map] in *.
      rewrite app_nil_r in *. destruct (Forall_inv L1) as (G1 & G2 & _). exists l, id, sn, g. split; [apply (registered_slot o _ F k _ _ _ _ _ I0 Hk); auto|]. auto 10.
    - left. rewrite (L8 eq_refl) in *. simpl in *. split; auto. split; auto. intros id sn g R. apply (registered_slot o _ F k _ _ _ _ _ I0 Hk) in R as [_ R]. congruence.
  Qed.
  Lemma prog_windows h ops log s : fits o (list_sum (map creations ops)) -> Forall (y_public o) ops ->
    y_run ne (y_new o h) ops = Ok (log, s) -> Forall ev_typed log -> Forall (fun x => so_step (ao_sep (rgo_agg o)) <= sm_ts x) (samples n [] log) ->
    exists groups rest, Forall2 (told ne (rgo_agg o)) groups (got n log) /\ Permutation (concat groups ++ rest) (samples n [] log).
  Proof.
    intros F HP E HT HX. destruct (prog_lives h ops log s F HP E HT) as (lives & L1 & -> & L3 & _).
    destruct (lives_windows ne Hne (rgo_agg o) Hs lives L1 (subseq_forall _ _ _ L3 HX)) as (gs & r & G1 & G2).
    destruct (subseq_perm _ _ L3) as (r2 & P2). exists gs, (r ++ r2). split; auto. rewrite <- P2, <- G2, <- app_assoc. reflexivity.
  Qed.
  Lemma prog_order ops log s : fits o (list_sum (map creations ops)) -> Forall (y_public o) ops -> Forall (kept n) ops -> Forall metered ops ->
    forward (so_step (ao_sep (rgo_agg o))) (flat_map (times o n) ops) ->
    y_run ne (y_new o true) ops = Ok (log, s) -> Forall ev_typed log ->
    StronglySorted Z.le (map ad_ts (got n log)) /\
    forall id sn g, registered (y_reg s) n id sn g -> Forall (fun d => ad_ts d <= agg_label g) (got n log).
  Proof.
    intros F HP HK HM HF E HT. destruct (run_ok ne Hne o Hs Hi n Hn true true true ops log s) as (k & T & H); auto; try discriminate.
    destruct (sys_cell ne o n _ _ _ _ _ _ _ _ _ _ H) as (c & _ & HA & ((lives & _ & L2 & _ & _ & L5) & HO) & _).
    assert (A : y_alive s = true). { destruct H as (_ & H). destruct (y_alive s); auto. destruct H; discriminate. }
    specialize (HA A). destruct H as (_ & H). rewrite A in H. destruct H as ((I0 & Hk & _) & _). destruct (L5 eq_refl) as (_ & _ & L8). specialize (HO eq_refl eq_refl).
    destruct c as [g|].
    - destruct HO as [O1 O2]. split; auto. intros id sn g1 R. apply (registered_slot o _ F k _ _ _ _ _ I0 Hk) in R as [_ R]. unfold aggof in HA. rewrite R in HA. now injection HA as ->.
    - rewrite L2, (L8 eq_refl). simpl. split; [constructor|]. intros. constructor.
  Qed.
End Prog.
