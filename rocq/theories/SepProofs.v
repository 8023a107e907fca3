(** The separator refines the grouping specification. *)
From Coq Require Import ZArith List Bool Permutation Lia Arith Sorted.
From Verif Require Import Base SortFacts ModelTypes ModelAvg ModelReducer SpecReducer ReducerProofs PubProofs
  ModelSeparator SpecSeparator.
Import ListNotations.
Local Open Scope Z_scope.

Lemma chk_ok z y : chk z = Ok y -> y = z /\ i64 z.
Proof.
  unfold chk, in_i64, i64. destruct (Z.leb_spec i64_min z), (Z.leb_spec z i64_max); simpl; intros E; try discriminate.
  injection E as <-. auto.
Qed.
Lemma chk_i64 z : i64 z -> chk z = Ok z.
Proof.
  unfold chk, in_i64, i64. destruct (Z.leb_spec i64_min z), (Z.leb_spec z i64_max); simpl; auto; lia.
Qed.

Lemma trunc_i64 step t : step <> 0 -> i64 t -> i64 (truncated step t).
Proof.
  unfold truncated, i64, i64_min, i64_max. intros Hs Ht.
  pose proof (Z.quot_rem' t step) as Q.
  destruct (Z_le_gt_dec 0 t).
  - assert (0 <= t ÷ step * step <= t); [|lia].
    assert (0 <= Z.rem t step) by (apply Z.rem_nonneg; lia).
    split; [|lia].
    destruct (Z_le_gt_dec 0 step).
    + apply Z.mul_nonneg_nonneg; [apply Z.quot_pos; lia|lia].
    + assert (Z.quot t step <= 0); [|nia].
      rewrite <- (Z.opp_involutive step), Z.quot_opp_r by lia.
      pose proof (Z.quot_pos t (- step)). lia.
  - assert (t <= t ÷ step * step <= 0); [|lia].
    assert (Z.rem t step <= 0) by (apply Z.rem_nonpos; lia).
    split; [lia|].
    destruct (Z_le_gt_dec 0 step).
    + assert (Z.quot t step <= 0); [|nia].
      rewrite <- (Z.opp_involutive t), Z.quot_opp_l by lia.
      pose proof (Z.quot_pos (- t) step). lia.
    + assert (0 <= Z.quot t step); [|nia].
      rewrite <- (Z.opp_involutive step), <- (Z.opp_involutive t), Z.quot_opp_opp by lia.
      pose proof (Z.quot_pos (- t) (- step)). lia.
Qed.

Lemma trunc_idem step t : step <> 0 -> truncated step (truncated step t) = truncated step t.
Proof. intros H. unfold truncated. now rewrite Z.quot_mul. Qed.

Lemma get_ts_spec step res c ts : 0 < step -> i64 (given_time res c ts) ->
  get_ts step res c ts = Ok (acc_time step res c ts).
Proof.
  intros Hs Hi. unfold get_ts, acc_time, given_time in *.
  set (t := if negb (ts =? 0) || res_none res then ts else c) in *.
  rewrite (proj2 (Z.eqb_neq step 0)) by lia.
  rewrite chk_i64.
  - cbn [bind]. apply chk_i64. apply (trunc_i64 step t); auto. lia.
  - pose proof (trunc_i64 step t ltac:(lia) Hi) as T. unfold truncated, i64, i64_min, i64_max in *. nia.
Qed.

Lemma get_ts_ok step res c ts t : 0 < step -> get_ts step res c ts = Ok t -> t = acc_time step res c ts /\ i64 t.
Proof.
  intros Hs. unfold get_ts, acc_time, given_time, truncated.
  set (x := if negb (ts =? 0) || res_none res then ts else c).
  rewrite (proj2 (Z.eqb_neq step 0)) by lia.
  destruct (chk (Z.quot x step)) eqn:E; simpl; try discriminate. apply chk_ok in E as [-> _].
  intros E. apply chk_ok in E. destruct E as [-> E]. auto.
Qed.

Lemma window_of_le l step t : 0 < step -> l <= t -> l <= window_of l step t <= t /\ t < window_of l step t + step.
Proof.
  intros Hs Hl. unfold window_of. pose proof (Z.div_mod (t - l) step ltac:(lia)).
  pose proof (Z.mod_pos_bound (t - l) step Hs). pose proof (Z.div_pos (t - l) step). nia.
Qed.
Lemma window_of_spec l step t : 0 < step -> window_of l step t <= t < window_of l step t + step.
Proof.
  intros Hs. unfold window_of. pose proof (Z.div_mod (t - l) step ltac:(lia)).
  pose proof (Z.mod_pos_bound (t - l) step Hs). nia.
Qed.
Lemma window_of_shift l k step t : 0 < step -> window_of (l + k * step) step t = window_of l step t.
Proof.
  intros Hs. unfold window_of. replace (t - (l + k * step)) with (t - l + (- k) * step) by lia.
  rewrite Z.div_add by lia. lia.
Qed.
Lemma window_of_mono l step t u : 0 < step -> t <= u -> window_of l step t <= window_of l step u.
Proof.
  intros Hs H. unfold window_of. pose proof (Z.div_le_mono (t - l) (u - l) step Hs ltac:(lia)). nia.
Qed.
Lemma window_of_fix l step t : 0 < step -> l <= t < l + step -> window_of l step t = l.
Proof. intros Hs H. unfold window_of. rewrite Z.div_small by lia. lia. Qed.
Lemma window_of_congr l step t : exists k, window_of l step t = l + k * step.
Proof. unfold window_of. eexists. reflexivity. Qed.

Section NE.
  Variable ne : nat -> list Z -> list Z.
  Hypothesis Hne : nth_element_ok ne.

  (** The loop started on an empty reducer only advances the time. *)
  Lemma sep_loop_empty step ts : 0 < step -> forall fuel next r p,
    r_empty r = true -> sep_loop ne fuel step ts next r = Ok p ->
    p = ([], r, if next <=? ts then window_of (next - step) step ts + step else next).
  Proof.
    intros Hs. induction fuel as [|fuel IH]; intros next r p Hr E; simpl in E.
    - destruct (next <=? ts); [discriminate|]. now injection E as <-.
    - destruct (Z.leb_spec next ts) as [L|L]; [|now injection E as <-].
      unfold r_detach in E. rewrite Hr in E. cbn [bind] in E.
      destruct (chk (next + step)) as [n1| |] eqn:E1; cbn [bind] in E; try discriminate.
      apply chk_ok in E1 as [-> _].
      destruct (sep_loop ne fuel step ts (next + step) r) as [q| |] eqn:E2; cbn [bind] in E; try discriminate.
      apply IH in E2; auto. subst q. injection E as <-. simpl. f_equal.
      replace (next + step - step) with next by lia.
      destruct (Z.leb_spec (next + step) ts).
      + f_equal. rewrite <- (window_of_shift (next - step) 1) by lia. f_equal. lia.
      + rewrite <- (window_of_shift (next - step) 1) by lia.
        replace (next - step + 1 * step) with next by lia. rewrite window_of_fix by lia. lia.
  Qed.

  (** Reachable reducers with a given window. *)
  Definition reach (o : ropts) (g : list rop) (r : reducer) : Prop :=
    exists ops, Forall op_typed ops /\ (window ops = g /\ ~ In OpReduce ops) /\ r_run ne (reducer_new o) ops = Ok r.

  Lemma reach_inv o g r : reach o g r -> WInv o g r.
  Proof. intros (ops & HT & [<- _] & E). now apply (run_inv ne Hne o ops). Qed.

  Lemma reach_step o g r op r' : reach o g r -> op_typed op -> op <> OpReduce -> r_step ne r op = Ok r' -> reach o (window_step g op) r'.
  Proof.
    intros (ops & HT & [<- HR] & E) Ho HN E'. exists (ops ++ [op]). repeat split.
    - apply Forall_app; auto.
    - unfold window. now rewrite fold_left_app.
    - intros I. apply in_app_or in I. destruct I as [I|[I|[]]]; auto.
    - rewrite run_app, E. cbn [bind]. simpl. now rewrite E'.
  Qed.

  Lemma reach_new o : reach o [] (reducer_new o).
  Proof. exists []. repeat split; auto. Qed.

  Lemma typed_detach : op_typed OpDetach. Proof. split; [constructor|unfold is_u64, two64; simpl; lia]. Qed.
  Lemma typed_clear : op_typed OpClear. Proof. split; [constructor|unfold is_u64, two64; simpl; lia]. Qed.

  Lemma reach_detach o g r a r' : reach o g r -> r_detach ne r = Ok (a, r') ->
    reach o [] r' /\
    match g with
    | [] => a = None /\ r' = r
    | _ => exists x, a = Some x /\ forall w, record_of ne o w g (ad_set_ts w x)
    end.
  Proof.
    intros R E. split.
    - apply (reach_step o g r OpDetach r' R typed_detach); [discriminate|]. simpl. now rewrite E.
    - pose proof (reach_inv o g r R) as W. destruct g as [|op g].
      + unfold r_detach in E. rewrite (w_empty _ _ _ W) in E. injection E as <- <-. auto.
      + destruct a as [x|].
        * exists x. split; auto. intros w. destruct R as (ops & HT & [Hw HR] & Er).
          exists ops, x. repeat split; auto. exists r, r'. auto.
        * exfalso. unfold r_detach in E. rewrite (w_empty _ _ _ W) in E.
          destruct (r_reduce ne r); simpl in E; try discriminate.
          destruct (f64_to_i64 (r_avg a)); simpl in E; discriminate.
  Qed.

  Lemma reach_empty o g r : reach o g r -> r_empty r = match g with [] => true | _ => false end.
  Proof. intros R. apply (w_empty _ _ _ (reach_inv o g r R)). Qed.

  (** The separation loop closes the open window and advances. *)
  Lemma sep_loop_spec o g step ts fuel next r recs r2 next2 : 0 < step ->
    reach o g r -> sep_loop ne fuel step ts next r = Ok (recs, r2, next2) ->
    let '(out, sp) := spec_advance step ts (mk_spec (next - step) g []) in
    Forall2 (fun q a => record_of ne o (fst q) (snd q) a) out recs /\
    reach o (sp_open sp) r2 /\ next2 = sp_cur sp + step.
  Proof.
    intros Hs R E. unfold spec_advance. simpl sp_cur. replace (next - step + step) with next by lia.
    destruct (Z.ltb_spec ts next) as [L|L].
    { destruct fuel; simpl in E; rewrite (proj2 (Z.leb_gt next ts)) in E by lia; injection E as <- <- <-;
        simpl; repeat split; auto; lia. }
    destruct fuel; simpl in E; rewrite (proj2 (Z.leb_le next ts)) in E by lia; [discriminate|].
    destruct (r_detach ne r) as [[a r1]| |] eqn:Ed; cbn [bind] in E; try discriminate.
    destruct (reach_detach o g r a r1 R Ed) as [R1 D].
    set (rec := match a with None => Ok [] | Some x => t <- chk (next - step) ;; Ok [ad_set_ts t x] end) in E.
    destruct rec as [rc| |] eqn:Erc; cbn [bind] in E; try discriminate.
    destruct (chk (next + step)) as [n1| |] eqn:E1; cbn [bind] in E; try discriminate.
    apply chk_ok in E1 as [-> _].
    destruct (sep_loop ne fuel step ts (next + step) r1) as [q| |] eqn:E2; cbn [bind] in E; try discriminate.
    apply sep_loop_empty in E2; [|auto|exact (reach_empty _ _ _ R1)]. subst q. injection E as <- <- <-.
    assert (W : (if next + step <=? ts then window_of (next + step - step) step ts + step else next + step) =
                window_of (next - step) step ts + step).
    { replace (next + step - step) with next by lia.
      rewrite <- (window_of_shift (next - step) 1) by lia. replace (next - step + 1 * step) with next by lia.
      destruct (Z.leb_spec (next + step) ts); auto. rewrite window_of_fix; lia. }
    rewrite W. simpl. rewrite app_nil_r. split; [|split; [exact R1|reflexivity]].
    destruct g as [|op g].
    - destruct D as [-> _]. injection Erc as <-. constructor.
    - destruct D as (x & -> & D). destruct (chk (next - step)) as [t| |] eqn:Et; simpl in Erc; try discriminate.
      apply chk_ok in Et as [-> _]. injection Erc as <-. constructor; [apply D|constructor].
  Qed.

  Definition rel (o : ropts) (q : group) (a : adata) : Prop := record_of ne o (fst q) (snd q) a.

  (** Simulation relation. *)
  Definition Sim (o : ropts) (step : Z) (res : resolution) (s : sep) (sp : spec) : Prop :=
    s_step s = step /\ s_res s = res /\ s_next s = sp_cur sp + step /\ i64 (s_next s) /\
    reach o (sp_open sp) (s_red s) /\ Forall2 (rel o) (sp_queue sp) (s_list s).

  Lemma Sim_intro o step res s sp : s_step s = step -> s_res s = res -> s_next s = sp_cur sp + step ->
    i64 (s_next s) -> reach o (sp_open sp) (s_red s) -> Forall2 (rel o) (sp_queue sp) (s_list s) -> Sim o step res s sp.
  Proof. unfold Sim. intros. do 5 (split; [assumption|]). assumption. Qed.

  Lemma separate_sim o step res s sp c ts h force b recs s' : 0 < step -> Sim o step res s sp ->
    s_separate ne c ts h force s = Ok (b, recs, s') ->
    let t := acc_time step res c ts in
    let '(out, sp1) := spec_deliver h (spec_advance step t sp) in
    b = (force || (sp_cur sp + step <=? t)) /\ Forall2 (rel o) out recs /\ Sim o step res s' sp1 /\ i64 t.
  Proof.
    intros Hs (S1 & S2 & S3 & S4 & S5 & S6) E t. unfold s_separate in E. rewrite S1, S2 in E.
    destruct (get_ts step res c ts) as [t'| |] eqn:Et; cbn [bind] in E; try discriminate.
    apply get_ts_ok in Et as [-> It]; auto. fold t in E, It.
    destruct (negb force && (t <? s_next s)) eqn:En.
    - injection E as <- <- <-. apply andb_true_iff in En as [En1 En2].
      destruct force; [discriminate|]. rewrite S3 in En2. unfold spec_advance. rewrite En2. 
      apply Z.ltb_lt in En2. unfold spec_deliver.
      assert (B : false = (sp_cur sp + step <=? t)) by (symmetry; apply Z.leb_gt; lia).
      destruct h; simpl.
      + split; [exact B|]. split; [constructor|]. split; [|exact It]. now apply Sim_intro.
      + rewrite app_nil_r. split; [exact B|]. split; [constructor|]. split; [|exact It]. now apply Sim_intro.
    - destruct (sep_loop ne (sep_fuel step t (s_next s)) step t (s_next s) (s_red s)) as [[[rc r2] n2]| |] eqn:EL;
        cbn [bind] in E; try discriminate.
      pose proof (sep_loop_spec o (sp_open sp) step t _ (s_next s) (s_red s) rc r2 n2 Hs S5 EL) as L.
      assert (I2 : i64 n2).
      { clear - EL S4. revert EL. generalize (sep_fuel step t (s_next s)). intros fuel.
        generalize dependent (s_red s). generalize dependent (s_next s). revert rc r2 n2.
        induction fuel as [|fuel IH]; intros rc r2 n2 next Hn r E; simpl in E.
        - destruct (next <=? t); [discriminate|]. now injection E as _ _ <-.
        - destruct (next <=? t); [|now injection E as _ _ <-].
          destruct (r_detach ne r) as [[a r1]| |]; cbn [bind] in E; try discriminate.
          destruct (match a with Some _ => _ | None => _ end); cbn [bind] in E; try discriminate.
          destruct (chk (next + step)) as [n1| |] eqn:E1; cbn [bind] in E; try discriminate.
          apply chk_ok in E1 as [-> E1].
          destruct (sep_loop ne fuel step t (next + step) r1) as [[[? ?] ?]| |] eqn:E2; cbn [bind] in E; try discriminate.
          injection E as _ _ <-. eapply IH; eauto. }
      assert (A : spec_advance step t sp = 
                  (fst (spec_advance step t (mk_spec (s_next s - step) (sp_open sp) [])),
                   let q := snd (spec_advance step t (mk_spec (s_next s - step) (sp_open sp) [])) in
                   mk_spec (sp_cur q) (sp_open q) (sp_queue sp))).
      { unfold spec_advance. simpl. rewrite S3. replace (sp_cur sp + step - step) with (sp_cur sp) by lia.
        destruct (t <? sp_cur sp + step); simpl; auto. now destruct sp. }
      rewrite A. clear A.
      destruct (spec_advance step t (mk_spec (s_next s - step) (sp_open sp) [])) as [out sq]. simpl in *.
      destruct L as (L1 & L2 & L3).
      assert (B : b = (force || (sp_cur sp + step <=? t))).
      { injection E as <- _ _. destruct force; auto. simpl in En. rewrite S3 in En. apply Z.ltb_ge in En.
        simpl. symmetry. apply Z.leb_le. lia. }
      unfold spec_deliver. destruct h; simpl.
      + injection E as _ <- <-. split; [exact B|]. split; [exact L1|]. split; [|exact It].
        apply Sim_intro; simpl; auto. rewrite app_nil_r. auto.
      + injection E as _ <- <-. split; [exact B|]. split; [constructor|]. split; [|exact It].
        apply Sim_intro; simpl; auto. now apply Forall2_app.
  Qed.

  Lemma put_sim o step res s sp c1 c2 ts h op b recs s' addf : 0 < step -> Sim o step res s sp -> op_typed op ->
    (forall r, r_step ne r op = Ok (addf r)) -> (forall w, window_step w op = w ++ [op]) ->
    s_put ne c1 c2 ts h addf s = Ok (b, recs, s') ->
    let '(so, sp1) := spec_put step (adv_time step res c1 c2 ts) (acc_time step res c1 ts) h op sp in
    po_bool so = Some b /\ Forall2 (rel o) (po_handler so) recs /\ po_ptr so = None /\ Sim o step res s' sp1.
  Proof.
    intros Hs SI Ho Hf Hw E. unfold s_put in E. assert (SI' := SI). destruct SI' as (S1 & S2 & _).
    rewrite S1, S2 in E.
    destruct (get_ts step res c1 ts) as [t| |] eqn:Et; cbn [bind] in E; try discriminate.
    apply get_ts_ok in Et as [-> It]; auto.
    destruct (s_separate ne c2 (acc_time step res c1 ts) h false s) as [[[b1 rc] s1]| |] eqn:Es; cbn [bind] in E; try discriminate.
    pose proof (separate_sim o step res s sp c2 _ h false b1 rc s1 Hs SI Es) as L. cbv zeta in L.
    change (acc_time step res c2 (acc_time step res c1 ts)) with (adv_time step res c1 c2 ts) in L.
    unfold spec_put. destruct (spec_deliver h (spec_advance step (adv_time step res c1 c2 ts) sp)) as [out sp1].
    destruct L as (_ & L1 & L2 & _). destruct L2 as (T1 & T2 & T3 & T4 & T5 & T6).
    rewrite T1 in E. destruct (chk (s_next s1 - step)) as [cur| |] eqn:Ec; cbn [bind] in E; try discriminate.
    apply chk_ok in Ec as [-> _]. rewrite T3 in E. replace (sp_cur sp1 + step - step) with (sp_cur sp1) in E by lia.
    destruct (acc_time step res c1 ts <? sp_cur sp1).
    - injection E as <- <- <-. simpl. split; [auto|]. split; [auto|]. split; [auto|]. now apply Sim_intro.
    - injection E as <- <- <-. simpl. split; [auto|]. split; [auto|]. split; [auto|].
      apply Sim_intro; cbn [sp_cur sp_open sp_queue s_step s_res s_next s_red s_list]; auto.
      + rewrite <- T3. auto.
      + rewrite <- Hw. eapply reach_step; eauto. intros ->. specialize (Hw []). discriminate.
  Qed.

  Definition out_rel (o : ropts) (op : sop) (so : spout) (out : sout) : Prop :=
    po_bool so = out_bool out /\ Forall2 (rel o) (po_handler so) (out_handler out) /\
    match po_ptr so, out_ptr out with
    | None, None => True
    | Some q, Some a =>
        match op with
        | SoPeek => exists b, rel o q b /\ same_summary a b /\ ad_ts a = fst q
        | _ => rel o q a
        end
    | _, _ => False
    end.

  Lemma call_sim o step res s sp op out s' : 0 < step -> Sim o step res s sp -> sop_typed op ->
    s_call ne op s = Ok (out, s') ->
    let '(so, sp1) := spec_call step res op sp in out_rel o op so out /\ Sim o step res s' sp1.
  Proof.
    intros Hs SI HT E. destruct op; simpl in E.
    - (* add *)
      simpl in HT. set (q := match x with SmScalar _ _ _ => _ | _ => _ end) in E.
      destruct q as [[[b recs] s1]| |] eqn:Eq; cbn [bind] in E; try discriminate. injection E as <- <-.
      assert (EP : exists addf, (forall r, r_step ne r (sm_op x) = Ok (addf r)) /\
                 s_put ne c1 c2 (sm_ts x) false addf s = Ok (b, recs, s1)).
      { destruct x; simpl in *; eexists; split; [| exact Eq| |exact Eq| |exact Eq| |exact Eq]; reflexivity. }
      destruct EP as (addf & Hf & EP).
      assert (Hw : forall w, window_step w (sm_op x) = w ++ [sm_op x]) by (intros; destruct x; reflexivity).
      pose proof (put_sim o step res s sp c1 c2 (sm_ts x) false (sm_op x) b recs s1 addf Hs SI HT Hf Hw EP) as P.
      simpl. destruct (spec_put _ _ _ _ _ _) as [so sp1]. destruct P as (P1 & P2 & P3 & P4).
      split; auto. unfold out_rel. simpl. rewrite P3. auto.
    - (* push *)
      simpl in HT. destruct HT as [HT HL]. set (q := match x with SmScalar _ _ _ => _ | _ => _ end) in E.
      destruct q as [[[b recs] s1]| |] eqn:Eq; cbn [bind] in E; try discriminate. injection E as <- <-.
      assert (EP : exists addf, (forall r, r_step ne r (sm_op x) = Ok (addf r)) /\
                 s_put ne c1 c2 (sm_ts x) true addf s = Ok (b, recs, s1)).
      { destruct x; simpl in *; try contradiction; eexists; split; [| exact Eq| |exact Eq| |exact Eq]; reflexivity. }
      destruct EP as (addf & Hf & EP).
      assert (Hw : forall w, window_step w (sm_op x) = w ++ [sm_op x]) by (intros; destruct x; reflexivity).
      pose proof (put_sim o step res s sp c1 c2 (sm_ts x) true (sm_op x) b recs s1 addf Hs SI HT Hf Hw EP) as P.
      simpl. destruct (spec_put _ _ _ _ _ _) as [so sp1]. destruct P as (P1 & P2 & P3 & P4).
      split; auto. unfold out_rel. simpl. rewrite P3. auto.
    - (* separate *)
      destruct (s_separate ne c ts h force s) as [[[b recs] s1]| |] eqn:Eq; cbn [bind] in E; try discriminate.
      injection E as <- <-. pose proof (separate_sim o step res s sp c ts h force b recs s1 Hs SI Eq) as L. cbv zeta in L.
      simpl. destruct (spec_deliver h _) as [out sp1]. destruct L as (-> & L2 & L3 & _). split; auto.
      unfold out_rel. simpl. auto.
    - (* pop *)
      destruct SI as (S1 & S2 & S3 & S4 & S5 & S6). unfold s_pop in E. simpl.
      destruct (s_list s) as [|a l] eqn:El, (sp_queue sp) as [|g q] eqn:Eq; try (inversion S6; fail).
      + injection E as <- <-. split; [unfold out_rel; simpl; auto|]. apply Sim_intro; auto. rewrite El, Eq. constructor.
      + injection E as <- <-. inversion S6; subst. split; [unfold out_rel; simpl; auto|]. now apply Sim_intro.
    - (* force_pop *)
      destruct SI as (S1 & S2 & S3 & S4 & S5 & S6). unfold s_force_pop, s_pop in E. simpl.
      destruct (s_list s) as [|a l] eqn:El, (sp_queue sp) as [|g q] eqn:Eq; try (inversion S6; fail).
      + destruct (r_detach ne (s_red s)) as [[a r1]| |] eqn:Ed; cbn [bind] in E; try discriminate.
        destruct (reach_detach o _ _ a r1 S5 Ed) as [R1 D].
        destruct (sp_open sp) as [|x g] eqn:Eo.
        * destruct D as [-> _]. cbn [bind] in E. injection E as <- <-. split; [unfold out_rel; simpl; auto|].
          apply Sim_intro; simpl; auto; rewrite El; constructor.
        * destruct D as (y & -> & D). cbn [bind] in E.
          destruct (chk (s_next s - s_step s)) as [t| |] eqn:Et; cbn [bind] in E; try discriminate.
          apply chk_ok in Et as [-> _]. injection E as <- <-. split.
          -- unfold out_rel. simpl. repeat split; auto. rewrite S3, S1.
             replace (sp_cur sp + step - step) with (sp_cur sp) by lia. apply D.
          -- apply Sim_intro; simpl; auto; rewrite El; constructor.
      + cbn [bind] in E. injection E as <- <-. inversion S6; subst. split; [unfold out_rel; simpl; auto|]. now apply Sim_intro.
    - (* get_current *)
      assert (SI' := SI). destruct SI as (S1 & S2 & S3 & S4 & S5 & S6). unfold s_get_current in E. simpl.
      destruct S5 as (ops & HO & HW & ER).
      pose proof (peek_same ne Hne o ops (s_red s) HO ER) as P.
      destruct (r_get_reduced ne (s_red s)) as [a| |] eqn:Eg; cbn [bind] in E; try discriminate.
      destruct (r_detach ne (s_red s)) as [[a' r1]| |] eqn:Ed; [|destruct a; contradiction|destruct a; contradiction].
      destruct (reach_detach o _ _ a' r1 (ex_intro _ ops (conj HO (conj HW ER))) Ed) as [_ D].
      destruct (sp_open sp) as [|x g] eqn:Eo.
      + destruct D as [-> _]. destruct a; [contradiction|]. cbn [bind] in E. injection E as <- <-.
        split; auto. unfold out_rel; simpl; auto.
      + destruct D as (y & -> & D). destruct a as [z|]; [|contradiction].
        destruct (chk (s_next s - s_step s)) as [t| |] eqn:Et; cbn [bind] in E; try discriminate.
        apply chk_ok in Et as [-> _]. injection E as <- <-. split; auto.
        unfold out_rel. simpl. repeat split; auto. exists (ad_set_ts (sp_cur sp) y). split; [apply D|].
        split; [|simpl; rewrite S3, S1; unfold ad_ts; simpl; lia]. exact P.
    - (* clear *)
      destruct SI as (S1 & S2 & S3 & S4 & S5 & S6). unfold s_clear in E. rewrite S1, S2 in E. simpl.
      destruct (get_ts step res c ts) as [t| |] eqn:Et; cbn [bind] in E; try discriminate.
      apply get_ts_ok in Et as [-> It]; auto.
      destruct (chk (acc_time step res c ts + step)) as [n| |] eqn:En; cbn [bind] in E; try discriminate.
      apply chk_ok in En as [-> In']. injection E as <- <-. split; [unfold out_rel; simpl; auto|].
      apply Sim_intro; simpl; auto. apply (reach_step o _ _ OpClear _ S5 typed_clear); [discriminate|reflexivity].
  Qed.
End NE.
