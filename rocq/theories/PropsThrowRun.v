(** C89 for whole programs whose handler throws now and then and which go on: how each operation ends, and that nothing becomes undefined. *)
From Coq Require Import ZArith List Bool Permutation Lia Arith Ascii.
From Verif Require Import Base SortFacts ModelTypes ModelReducer SpecReducer ModelSeparator SpecSeparator SepProofs ModelAggregator SpecAggregator
  ModelRegistry SpecRegistry ModelComposite ModelMeters ModelSystem SpecSystem SystemFinal AggRun AggSafe RegProofs RegFinal SpecTotal RegTotal
  ModelThrow SpecThrow SpecThrowSys ThrowProofs ThrowSys PropsReducer PropsSeparator PropsAggregator PropsRegistry PropsSystem PropsTotal PropsThrow.
Import ListNotations.
Local Open Scope Z_scope.

(** Times, values and the state of the wrtstat object are in range at every operation the program comes to (as in C71). *)
Fixpoint all_safe_t (o : aopts) (ne : nat -> list Z -> list Z) (s : sys) (ops : list ((name -> adata -> bool) * yop)) : Prop :=
  match ops with
  | [] => True
  | (th, op) :: t => y_safe o s op /\ forall e ev s', y_do_t ne th op s = Ok (e, ev, s') -> e <> EndTerminate -> all_safe_t o ne s' t
  end.

Section ThrowTotal.
  Variable ne : nat -> list Z -> list Z.
  Hypothesis Hne : nth_element_ok ne.
  Variable o : rgopts.
  Variable N : nat.
  Hypothesis F : fits o N.
  Hypothesis Hs : 0 < so_step (ao_sep (rgo_agg o)) <= i64_max.
  Notation TR := (TR ne o).
  Notation TY := (TY ne o).

  Lemma threw_safe K x th c1 c2 g recs g1 : GSafe ne (rgo_agg o) K g -> tg_push ne x th c1 c2 g = Ok (TThrew recs, g1) -> GSafe ne (rgo_agg o) K g1.
  Proof.
    intros (a & (S & Q & En & Ou) & C & V & L) E. assert (X : not_list x) by (destruct x; cbn in E; try discriminate; exact Logic.I).
    rewrite tg_push_eq in E by exact X. unfold g_push_t in E. destruct (g_enabled g) eqn:EN; cbn [negb] in E; [|discriminate].
    destruct (s_put_t _ _ _ _ _ _ _) as [[[b rs] s]| |] eqn:Ep; cbn [bind] in E; try discriminate.
    destruct (g_finish_all ne (g_out g) rs) as [ds| |]; cbn [bind] in E; try discriminate.
    destruct b as [b|]; [discriminate|]. injection E as _ <-. destruct (put_t_threw ne _ _ _ _ _ _ _ _ Ep) as (y & t & _ & (r & t' & Ed & _ & ->) & _).
    destruct S as (S1 & S2 & S3 & S4 & S5 & S6). destruct (reach_detach ne Hne _ _ _ _ _ S5 Ed) as [R _].
    exists (as_set (mk_spec (sp_cur (as_sp a)) [] (sp_queue (as_sp a))) a). split; [|cbn; split; [exact C|split; [constructor|apply Nat.le_0_l]]].
    split; [apply Sim_intro; cbn; auto|]. cbn. rewrite <- EN in *. auto.
  Qed.
  Lemma rcall_t_total th p x c1 c2 k K r : TR k K r -> (k <= N)%nat -> call_safe (rgo_agg o) (GoPush x true c1 c2) -> Z.of_nat K < two64 ->
    exists b l r', rg_call_opt_t ne th p x c1 c2 r = Ok (b, l, r') /\ TR k (K + length (op_values (sm_op x))) r'.
  Proof.
    intros T Hk HS HK. destruct p as [p|].
    2:{ do 3 eexists. split; [reflexivity|]. destruct T as [I R]. split; auto. eapply RSafe_le; [|exact R]. lia. }
    destruct (push_total ne Hne o N F Hs p x c1 c2 k K r T Hk HS HK) as (l & r' & E & T').
    destruct (existsb th l) eqn:EX.
    2:{ exists false, l, r'. split; [|exact T']. apply rcall_quiet; [exact E|]. intros d I. destruct (th d) eqn:Q; [|reflexivity].
        rewrite <- not_true_iff_false in EX. destruct EX. apply existsb_exists. eauto. }
    apply existsb_exists in EX as (d & Id & Td). cbn [rg_call_opt_t]. unfold rg_call_pusher in E. unfold rg_call_pusher_t.
    destruct (find_obj (rp_obj p) (rg_arr r)) as [[pos g]|] eqn:EF; [|injection E as <- _; destruct Id]. unfold g_call_pusher in E.
    destruct (pusher_live _ _) eqn:EL; cbn [bind] in E; [|injection E as <- _; destruct Id].
    destruct (g_call ne (GoPush x (pu_handler (rp_pu p)) c1 c2) g) as [[q g']| |] eqn:EC; cbn [bind] in E; try discriminate. injection E as El _.
    assert (X : not_list x) by (destruct x; cbn in EC; try discriminate; exact Logic.I).
    destruct (pu_handler (rp_pu p)).
    - cbn [out_handler] in *. rewrite <- El in Id. destruct (push_loud ne x th c1 c2 g q g' d X EC Id) as [_ H]. destruct (H Td) as [g2 E2]. rewrite E2. cbn [bind].
      do 3 eexists. split; [reflexivity|]. destruct T as [I R]. apply find_obj_some in EF. destruct (ri_arr _ _ _ I _ _ _ EF) as (_ & n0 & id & ED & P). split.
      + rewrite P in *. exact (proj1 (set_slot o N F k r n0 id (rp_obj p) g g2 I ED EF)).
      + apply RSafe_set; [eapply RSafe_le; [|exact R]; lia|]. eapply GSafe_le; [|eapply threw_safe; [exact (R _ _ _ EF)|exact E2]]. lia.
    - exfalso. rewrite call_push in EC by exact X. unfold g_push_with in EC. destruct (g_enabled g); cbn [negb bind] in EC; [|injection EC as <- _; subst l; destruct Id].
      destruct (g_add_with _ _ _) as [[b1 g2]| |]; cbn [bind] in EC; try discriminate. injection EC as <- _. subst l. destruct Id.
  Qed.
  Definition like (s s' : sys) : Prop := y_alive s' = y_alive s /\ y_funs s' = y_funs s /\ y_pts s' = y_pts s /\ w_handler (y_wrt s') = w_handler (y_wrt s).
  Lemma like_trans a b c : like a b -> like b c -> like a c.
  Proof. intros (A & B & C & D) (A2 & B2 & C2 & D2). repeat split; congruence. Qed.
  Lemma TR_le k K K' r : (K <= K')%nat -> TR k K r -> TR k K' r.
  Proof. intros L [I R]. split; auto. eapply RSafe_le; eauto. Qed.
  Lemma y_call_t_total th p d x cl k K s : y_alive s = true -> TR k K (y_reg s) -> (k <= N)%nat ->
    call_safe (rgo_agg o) (GoPush x true (fst cl) (snd cl)) -> Z.of_nat K < two64 -> (length (op_values (sm_op x)) = 1)%nat ->
    exists b e s', y_call_t ne th p d x cl s = Ok (b, e, s') /\ TR k (S K) (y_reg s') /\ like s s'.
  Proof.
    intros A T Hk HS HK HL. unfold y_call_t.
    destruct (rcall_t_total (dest_t th d (y_reg s)) p x (fst cl) (snd cl) k K _ T Hk HS HK) as (b & l & r' & -> & T'). rewrite HL, Nat.add_1_r in T'. cbn [bind].
    assert (Y : exists e, y_deliver d l (y_set_reg r' s) = Ok e).
    { unfold y_deliver. cbn [y_alive y_set_reg]. rewrite A. destruct l; eauto. destruct d; eauto. }
    destruct Y as (e & ->). cbn [bind]. do 3 eexists. split; [reflexivity|]. split; [exact T'|]. repeat split.
  Qed.
  Lemma y_report_t_total th rp cl k K s : y_alive s = true -> TR k K (y_reg s) -> (k <= N)%nat -> report_fits (y_funs s) rp ->
    report_safe (rgo_agg o) cl (EvReport rp) -> Z.of_nat (K + 3) < two64 ->
    exists b e s', y_report_t ne th rp cl s = Ok (b, e, s') /\ TR k (K + 3) (y_reg s') /\ like s s'.
  Proof.
    intros A T Hk HF HS HK. unfold report_fits in HF. unfold y_report_t. cbn [report_safe] in HS. destruct HS as [S1 S2].
    destruct (nth_error (y_funs s) (rp_fun rp)) as [[p id|p to]|], (rp_sizes rp) as [[rd wr]|]; try contradiction.
    - destruct (y_call_t_total th (Some p) (DId id) _ (cl RoTime) k K s A T Hk S1 ltac:(lia) eq_refl) as (b & e & s' & E & T' & L).
      exists b, e, s'. split; auto. split; auto. eapply TR_le; [|exact T']. lia.
    - destruct S2 as (U1 & U2 & S2 & S3).
      assert (CNT : forall k0 v c c', is_u64 c' -> call_safe (rgo_agg o) (GoPush (SmScalar (rp_now rp) v c) true (fst (cl k0)) (snd (cl k0))) ->
        call_safe (rgo_agg o) (GoPush (SmScalar (rp_now rp) v c') true (fst (cl k0)) (snd (cl k0)))).
      { intros k0 v c c' U [[[H1 H2] H3] H4]. split; [split; [split; [exact H1|exact U]|exact H3]|exact H4]. }
      destruct (y_call_t_total th (cp_time p) (to RoTime) _ (cl RoTime) k K s A T Hk S1 ltac:(lia) eq_refl) as (b1 & e1 & s1 & E1 & T1 & L1). rewrite E1. cbn [bind].
      assert (A1 : y_alive s1 = true) by (destruct L1 as (L1 & _); congruence).
      destruct b1; [do 3 eexists; split; [reflexivity|]; split; [eapply TR_le; [|exact T1]; lia|exact L1]|].
      destruct (y_call_t_total th (cp_read p) (to RoRead) (SmScalar (rp_now rp) (to_i64 rd) (if cp_sum p then rd else rp_count rp)) (cl RoRead) k _ s1 A1 T1 Hk) as (b2 & e2 & s2 & E2 & T2 & L2);
        [destruct (cp_sum p); eauto|lia|reflexivity|]. rewrite E2. cbn [bind]. pose proof (like_trans _ _ _ L1 L2) as L12.
      assert (A2 : y_alive s2 = true) by (destruct L2 as (L2 & _); congruence).
      destruct b2; [do 3 eexists; split; [reflexivity|]; split; [eapply TR_le; [|exact T2]; lia|exact L12]|].
      destruct (y_call_t_total th (cp_write p) (to RoWrite) (SmScalar (rp_now rp) (to_i64 wr) (if cp_sum p then wr else rp_count rp)) (cl RoWrite) k _ s2 A2 T2 Hk) as (b3 & e3 & s3 & E3 & T3 & L3);
        [destruct (cp_sum p); eauto|lia|reflexivity|]. rewrite E3. cbn [bind].
      do 3 eexists. split; [reflexivity|]. replace (K + 3)%nat with (S (S (S K))) by lia. split; auto. eapply like_trans; eauto.
  Qed.
  Lemma y_events_t_total th es cl k : (k <= N)%nat -> forall K s, y_alive s = true -> TR k K (y_reg s) ->
    Forall (fun e => match e with EvReport r => report_fits (y_funs s) r | _ => True end) es -> Forall (report_safe (rgo_agg o) cl) es ->
    Z.of_nat (K + 3 * reports es) < two64 ->
    exists b e s', y_events_t ne th es cl s = Ok (b, e, s') /\ TR k (K + 3 * reports es) (y_reg s') /\ like s s'.
  Proof.
    intros Hk. induction es as [|x es IH]; intros K s A T HF HS HK.
    - cbn [y_events_t]. do 3 eexists. split; [reflexivity|]. unfold reports. simpl. rewrite Nat.add_0_r. split; [exact T|repeat split].
    - inversion HF as [|? ? F1 F2]; inversion HS as [|? ? S1 S2]; subst. cbn [y_events_t].
      set (m := match x with EvReport _ => 1%nat | _ => 0%nat end). assert (RP : reports (x :: es) = (m + reports es)%nat) by (unfold reports, m; destruct x; reflexivity).
      rewrite RP in *.
      assert (X : exists b e1 s1, match x with EvReport rp => y_report_t ne th rp cl s | _ => Ok (false, [], s) end = Ok (b, e1, s1) /\ TR k (K + 3 * m) (y_reg s1) /\ like s s1).
      { unfold m in *. destruct x as [f|rp|f].
        - do 3 eexists. split; [reflexivity|]. simpl. rewrite Nat.add_0_r. split; [auto|repeat split].
        - apply y_report_t_total; auto; try lia.
        - do 3 eexists. split; [reflexivity|]. simpl. rewrite Nat.add_0_r. split; [auto|repeat split]. }
      destruct X as (b & e1 & s1 & -> & T1 & L1). cbn [bind]. destruct b; [do 3 eexists; split; [reflexivity|]; split; [eapply TR_le; [|exact T1]; lia|exact L1]|].
      destruct (IH (K + 3 * m)%nat s1) as (b2 & e2 & s2 & -> & T2 & L2); [destruct L1 as (L1 & _); congruence|auto|destruct L1 as (_ & L1 & _); now rewrite L1|auto|lia|].
      cbn [bind]. do 3 eexists. split; [reflexivity|]. split; [|eapply like_trans; eauto]. replace (K + 3 * (m + reports es))%nat with (K + 3 * m + 3 * reports es)%nat by lia. auto.
  Qed.
  Lemma y_do_t_total th op k K s : TY k K s -> (k + y_ids op <= N)%nat -> y_safe (rgo_agg o) s op -> Z.of_nat (K + y_volume op) < two64 ->
    exists e ev s' k', y_do_t ne th op s = Ok (e, ev, s') /\ (k' <= k + y_ids op)%nat /\ TY k' (K + y_volume op) s'.
  Proof.
    intros TT HN HS HK. destruct (y_do_total ne Hne o N F Hs op k K s TT HN HS HK) as (ev0 & s0 & k0 & E0 & L0 & T0).
    destruct op as [id|en m now|id sum|order en m sum now|op0 cl|g|force clk|clk].
    5: { clear ev0 s0 k0 E0 L0 T0. destruct TT as (HH & W & O & T). cbn [y_do_t y_volume y_ids y_safe] in *. rewrite Nat.add_0_r in *.
      assert (MORE : y_alive s = true -> TR k (K + 3) (y_reg s)) by (intros A; eapply TR_le; [|exact (T A)]; lia).
      destruct (y_typed op0 s) eqn:ET; [|do 4 eexists; split; [reflexivity|]; split; [apply Nat.le_refl|split; auto]].
      destruct (do_kept op0 s W ET) as [K1 K2]. pose proof (one_report op0 (y_pts s)) as OR. destruct (m_do op0 (y_pts s)) as [es pts]. cbn [fst snd] in *.
      assert (X : exists b e s', y_events_t ne th es cl s = Ok (b, e, s') /\ like s s' /\ (y_alive s' = true -> TR k (K + 3) (y_reg s')) /\ outlived s').
      { destruct (y_alive s) eqn:A.
        - destruct (y_events_t_total th es cl k ltac:(lia) K s A (T eq_refl) K2 HS ltac:(lia)) as (b & e & s' & E & T' & L). exists b, e, s'. split; auto. split; auto.
          split; [intros _; eapply TR_le; [|exact T']; lia|]. intros X. destruct L as (L & _). congruence.
        - exists false, (map LPoint es), s. split; [|split; [repeat split|split; [intros X; congruence|exact O]]].
          apply events_quiet; [apply dead_events; auto|]. intros m b I. exfalso. clear -I. induction es; [exact I|auto]. }
      destruct X as (b & e & s' & E & (L1 & L2 & L3 & L4) & T' & O'). rewrite E. cbn [bind]. destruct b.
      - do 4 eexists. split; [reflexivity|]. split; [apply Nat.le_refl|]. split; [congruence|]. split; [|split; auto]. intros i p. rewrite L2, L3. apply W.
      - do 4 eexists. split; [reflexivity|]. split; [apply Nat.le_refl|]. split; [cbn; congruence|]. split; [|split; auto]. intros i p G. cbn [y_pts y_funs] in *. rewrite L2. exact (K1 i p G). }
    1-5: cbn [y_do_t]; rewrite E0; cbn [bind]; exists EndReturn, ev0, s0, k0; split; [reflexivity|]; split; [exact L0|exact T0].
    - cbn [y_do y_do_t] in *. destruct (negb _); [discriminate|]. destruct (w_pushout _ _ _ _) as [[l w]| |]; cbn [bind] in *; try discriminate. injection E0 as _ <-.
      destruct (give th l) as [b l1]. do 3 eexists. exists k0. split; [reflexivity|]. split; [exact L0|exact T0].
    - cbn [y_do y_do_t] in *. destruct (negb _); [discriminate|]. destruct (w_pushout _ _ _ _) as [[l w]| |]; cbn [bind] in *; try discriminate. injection E0 as _ <-.
      destruct (give th l) as [b l1]. do 3 eexists. exists k0. split; [reflexivity|]. split; [exact L0|exact T0].
  Qed.
  Lemma y_run_t_total ops : forall k K s, TY k K s -> (k + list_sum (map (fun q => y_ids (snd q)) ops) <= N)%nat -> all_safe_t (rgo_agg o) ne s ops ->
    Z.of_nat (K + list_sum (map (fun q => y_volume (snd q)) ops)) < two64 -> exists outs s', y_run_t ne s ops = Ok (outs, s').
  Proof.
    induction ops as [|[th op] ops IH]; intros k K s T HN HS HK; [simpl; eauto|]. destruct HS as [H1 H2]. cbn [map list_sum fold_right snd] in *.
    fold (list_sum (map (fun q : (name -> adata -> bool) * yop => y_volume (snd q)) ops)) in HK. fold (list_sum (map (fun q : (name -> adata -> bool) * yop => y_ids (snd q)) ops)) in HN. cbn [y_run_t].
    destruct (y_do_t_total th op k K s T ltac:(lia) H1 ltac:(lia)) as (e & ev & s1 & k1 & E & L & T1). rewrite E. cbn [bind].
    destruct e; try (destruct (IH k1 _ s1 T1) as (log & s2 & ->); [lia|eapply H2; [exact E|discriminate]|lia|]; cbn [bind]); eauto.
  Qed.
End ThrowTotal.

(** Whatever the handler throws on, no operation becomes undefined and the program goes on until it is over or terminated. *)
Theorem C89_defined : forall ne, nth_element_ok ne -> forall o ops, 0 < so_step (ao_sep (rgo_agg o)) <= i64_max ->
  fits o (list_sum (map (fun q => y_ids (snd q)) ops)) -> all_safe_t (rgo_agg o) ne (y_new o true) ops ->
  Z.of_nat (list_sum (map (fun q => y_volume (snd q)) ops)) < two64 ->
  exists outs s, y_run_t ne (y_new o true) ops = Ok (outs, s).
Proof.
  intros ne Hne o ops Hs F HS HK. apply (y_run_t_total ne Hne o _ F Hs ops 0 0); auto. destruct (new_inv o true) as [W O].
  split; [reflexivity|]. split; auto. split; auto. intros _. split; [apply RInv_new|]. intros [|pos] s g E; discriminate E.
Qed.
Print Assumptions C89_defined.

(** Each operation of such a program ends with an exception exactly if the handler threw, then on the last record given to it; only the destruction of
    a point or of the wrtstat object terminates the program, and everything is carried out up to there. *)
Theorem C89_program : forall ne ops s outs s', y_run_t ne s ops = Ok (outs, s') ->
  (length outs = length ops \/ exists l ev, outs = l ++ [(EndTerminate, ev)]) /\
  forall j e ev, nth_error outs j = Some (e, ev) -> exists th op, nth_error ops j = Some (th, op) /\
    match e with
    | EndReturn => throws_never th (handler_calls ev)
    | EndThrow => throws_last th (handler_calls ev) /\ match op with YDestroy _ | YPt (MDestroy _ _ _) _ => False | _ => True end
    | EndTerminate => throws_last th (handler_calls ev) /\ S j = length outs /\ match op with YDestroy _ | YPt (MDestroy _ _ _) _ => True | _ => False end
    end.
Proof.
  intros ne ops. induction ops as [|[th op] ops IH]; intros s outs s' E; cbn [y_run_t] in E.
  - injection E as <- _. split; [now left|]. intros [|j] e ev H; discriminate H.
  - destruct (y_do_t ne th op s) as [[[e ev] s1]| |] eqn:D; cbn [bind] in E; try discriminate.
    pose proof (C89_only_handler _ _ _ _ _ _ _ D) as T.
    assert (EE : match e with EndReturn => True | EndThrow => match op with YDestroy _ | YPt (MDestroy _ _ _) _ => False | _ => True end
                 | EndTerminate => match op with YDestroy _ | YPt (MDestroy _ _ _) _ => True | _ => False end end).
    { clear -D. destruct op as [id|en m now|id sum|order en m sum now|op0 cl|g|force clk|clk]; cbn [y_do_t] in D.
      5: { destruct (y_typed op0 s); [|now injection D as <- _ _]. destruct (m_do op0 (y_pts s)) as [es pts]. destruct (y_events_t _ _ _ _ _) as [[[b ev1] s2]| |]; cbn [bind] in D; try discriminate.
           destruct b; injection D as <- _ _; [|exact I]. destruct op0; exact I. }
      1-5: destruct (y_do ne _ s) as [[ev1 s2]| |]; cbn [bind] in D; try discriminate; now injection D as <- _ _.
      - destruct (negb _); [discriminate|]. destruct (w_pushout _ _ _ _) as [[l w]| |]; cbn [bind] in D; try discriminate. destruct (give th l) as [[|] l1]; now injection D as <- _ _.
      - destruct (negb _); [discriminate|]. destruct (w_pushout _ _ _ _) as [[l w]| |]; cbn [bind] in D; try discriminate. destruct (give th l) as [[|] l1]; now injection D as <- _ _. }
    destruct e.
    1,2: destruct (y_run_t ne s1 ops) as [[es s2]| |] eqn:R; cbn [bind] in E; try discriminate; injection E as <- _; destruct (IH _ _ _ R) as [L P]; split;
      [destruct L as [L|(l & ev1 & ->)]; [left; cbn; now rewrite L|right; eexists (_ :: l), ev1; reflexivity]|].
    1,2: intros [|j] e1 ev1 H; cbn [nth_error] in H; [injection H as <- <-; exists th, op; split; [reflexivity|]; first [exact T | split; [exact T|exact EE]]|].
    1,2: destruct (P j e1 ev1 H) as (th1 & op1 & A & B); exists th1, op1; split; [exact A|]; destruct e1; auto; destruct B as (B1 & B2 & B3); cbn [length]; auto.
    injection E as <- _. split; [right; exists [], ev; reflexivity|]. intros [|[|j]] e1 ev1 H; cbn [nth_error] in H; try discriminate. injection H as <- <-.
    exists th, op. auto.
Qed.
Print Assumptions C89_program.

(** Non-trivial: the program of C71 with a handler that throws on every record: push(), pushout() and force_pushout() end with the exception and the
    program goes on, until ~wrtstat terminates it; the operations behind it are not reached. *)
Definition ty_ops : list ((name -> adata -> bool) * yop) := map (fun op => (hy_all, op)) tx_ops.
Lemma all_safe_t_cons o ne s th op t e ev s1 : y_safe o s op -> y_do_t ne th op s = Ok (e, ev, s1) -> (e <> EndTerminate -> all_safe_t o ne s1 t) -> all_safe_t o ne s ((th, op) :: t).
Proof. intros A B C. split; auto. intros e' ev' s' E. rewrite B in E. injection E as <- _ <-. exact C. Qed.
Ltac safe_step_t := eapply all_safe_t_cons;
  [cbv beta iota delta [y_safe]; try match goal with |- Forall _ ?l => let v := eval vm_compute in l in change l with v end; ranges | vm_compute; reflexivity |];
  first [let H := fresh in intros H; exfalso; apply H; reflexivity | intros _].
Example C89_defined_witness : all_safe_t (rgo_agg yx_o) ne_rev (y_new yx_o true) ty_ops /\ fits yx_o (list_sum (map (fun q => y_ids (snd q)) ty_ops)) /\
  Z.of_nat (list_sum (map (fun q => y_volume (snd q)) ty_ops)) < two64 /\ 0 < so_step (ao_sep (rgo_agg yx_o)) <= i64_max /\ length ty_ops = 22%nat.
Proof.
  split; [|split; [unfold fits; vm_compute; repeat split; congruence|split; [reflexivity|split; [vm_compute; split; congruence|reflexivity]]]].
  unfold ty_ops, tx_ops, yx_more, yx_ops, yx_after. cbn [app map]. repeat safe_step_t.
Qed.
Example C89_program_witness : exists outs s, y_run_t ne_rev (y_new yx_o true) ty_ops = Ok (outs, s) /\
  map (fun q => (match fst q with EndReturn => 0 | EndThrow => 1 | EndTerminate => 2 end, length (handler_calls (snd q))))%nat (skipn 8 outs) =
    [(1, 1); (1, 1); (0, 0); (0, 0); (0, 0); (1, 1); (0, 0); (2, 1)]%nat.
Proof. eexists _, _. split; [vm_compute; reflexivity|]. vm_compute. reflexivity. Qed.
