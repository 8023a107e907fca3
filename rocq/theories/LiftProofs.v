(** What holds of every aggregator and every record it delivers holds of every record a program receives. *)
From Coq Require Import ZArith List Bool Permutation Lia Arith Ascii.
From Verif Require Import Base SortFacts ModelTypes ModelReducer SpecReducer ModelSeparator SpecSeparator ModelAggregator SpecAggregator
  ModelRegistry SpecRegistry ModelComposite ModelMeters ModelSystem SpecSystem SystemProofs SystemRun SystemFinal RegTotal SpecWire.
Import ListNotations.
Local Open Scope Z_scope.

Ltac st E := match type of E with context [bind ?x _] => let F := fresh "F" in destruct x as [?| |] eqn:F; cbn [bind] in E; try discriminate E end.
Ltac stp E := match type of E with context [bind ?x _] => let F := fresh "F" in destruct x as [[? ?]| |] eqn:F; cbn [bind] in E; try discriminate E end.

(** Calls that deliver finished records only. *)
Definition g_plain (op : gop) : Prop := gop_typed op /\ match op with GoSeparate _ h _ _ => h = false | GoCurrent => False | _ => True end.

Section Lift.
  Variable ne : nat -> list Z -> list Z.
  Variable o : aopts.
  Variable P : agg -> Prop.
  Variable R : adata -> Prop.
  Hypothesis Hnew : forall c rnd ts g, agg_new o c rnd ts = Ok g -> P g.
  Hypothesis Hcall : forall op g r g', P g -> g_plain op -> g_call ne op g = Ok (r, g') ->
    P g' /\ Forall R (out_handler r) /\ (forall d, out_ptr r = Some d -> R d).

  Definition RP (r : registry) : Prop := rg_opt r = o /\ forall pos s g, nth_error (rg_arr r) pos = Some (Some (s, g)) -> P g.

  Lemma RP_new og : rgo_agg og = o -> RP (rg_new og).
  Proof. intros E. split; [exact E|]. intros [|pos] s g H; discriminate H. Qed.
  Lemma RP_set r pos s g : RP r -> P g -> RP (rg_set pos (Some (s, g)) r).
  Proof. intros [A B] G. split; [exact A|]. intros p s' g' E. simpl in E. apply nth_set in E as [E|E]; [|eauto]. injection E as -> ->. exact G. Qed.
  Lemma P_enable v g : P g -> P (g_enable v g).
  Proof. intros H. apply (Hcall (GoEnable v) g (mk_sout None [] None)); [exact H|split; exact I|reflexivity]. Qed.

  Lemma get_some r id pos s g : rg_get id r = Ok (Some (pos, (s, g))) -> nth_error (rg_arr r) pos = Some (Some (s, g)).
  Proof.
    unfold rg_get. destruct (id =? bad_id); [discriminate|]. intros E. st E.
    destruct (nth_error (rg_arr r) a) as [[ob|]|] eqn:EN; try discriminate. injection E as <- ->. exact EN.
  Qed.
  Lemma lift_create e n now r id r' : RP r -> env_typed e -> rg_create ne e n now r = Ok (id, r') -> RP r'.
  Proof.
    intros [A B] HE E. unfold rg_create in E. destruct n as [|c n]; [injection E as _ <-; split; auto|].
    destruct (d_create_id (ce_pick e) (c :: n) (rg_dict r)) as [id0 d]. st E. rename a into pos.
    assert (X : forall g0 g1, agg_new (rg_opt r) (ce_clock e) (ce_rnd e) now = Ok g0 ->
      (if negb (rg_enabled r) then Ok (g_enable false g0) else if rg_initializer r then
         match ce_init e with Some rd => '(_, g') <- g_add_red ne (ce_c1 e) (ce_c2 e) rd g0 ;; Ok g' | None => Ok g0 end else Ok g0) = Ok g1 -> P g1).
    { intros g0 g1 G0 Eg. rewrite A in G0. apply Hnew in G0. destruct (negb (rg_enabled r)); [injection Eg as <-; now apply P_enable|].
      destruct (rg_initializer r); [|injection Eg as <-; exact G0]. unfold env_typed in HE. destruct (ce_init e) as [d0|]; [|injection Eg as <-; exact G0].
      destruct (g_add_red ne (ce_c1 e) (ce_c2 e) d0 g0) as [[b g2]| |] eqn:EA; cbn [bind] in Eg; try discriminate Eg. injection Eg as <-.
      assert (C : g_call ne (GoAdd (SmRed d0) (ce_c1 e) (ce_c2 e)) g0 = Ok (mk_sout (Some b) [] None, g2)) by (cbn [g_call]; rewrite EA; reflexivity).
      refine (proj1 (Hcall _ _ _ _ G0 _ C)). split; [split; [exact HE|exact I]|exact I]. }
    assert (Y : forall g1, P g1 -> RP (mk_registry (rg_opt r) (set_nth pos (Some (rg_next r, g1)) (resize (S pos) (rg_arr r))) d
                                (rg_enabled r) (rg_initializer r) (S (rg_next r)))).
    { intros g1 G1. split; [exact A|]. intros p s g H. cbn [rg_arr] in H. apply nth_set in H as [H|H]; [injection H as -> ->; exact G1|].
      unfold resize in H. destruct (Nat.lt_ge_cases p (length (rg_arr r))) as [L|L]; [rewrite nth_error_app1 in H by exact L; eauto|].
      rewrite nth_error_app2 in H by exact L. apply nth_error_In in H. apply repeat_spec in H. discriminate H. }
    destruct (nth_error (rg_arr r) pos) as [[ob|]|] eqn:EN; [injection E as _ <-; split; auto| |].
    all: st E; st E; injection E as _ <-; eauto.
  Qed.
  Lemma lift_call id op r q r' : RP r -> g_plain op -> rg_call ne id op r = Ok (q, r') ->
    RP r' /\ Forall R (out_handler q) /\ (forall d, out_ptr q = Some d -> R d).
  Proof.
    intros HR T E. unfold rg_call in E. st E. destruct a as [[pos [s g]]|].
    - apply get_some in F. stp E. injection E as <- <-. destruct (Hcall _ _ _ _ (proj2 HR _ _ _ F) T F0) as (H1 & H2 & H3). split; auto. now apply RP_set.
    - injection E as <- <-. split; auto. destruct op; simpl; split; auto; discriminate.
  Qed.
  Lemma lift_pop_loop force clk is : forall r l r', RP r -> rg_pop_loop ne force clk is r = Ok (l, r') -> RP r' /\ Forall R (map snd l).
  Proof.
    induction is as [|i is IH]; intros r l r' HR E; cbn [rg_pop_loop] in E; [injection E as <- <-; split; [auto|constructor]|]. st E. st E.
    match type of E with bind ?x _ = _ => assert (X : forall l r1, x = Ok (l, r1) -> RP r1 /\ Forall R (map snd l)) end.
    { intros l1 r1 E1. destruct a0 as [[pos [s g]]|]; [|injection E1 as <- <-; split; [auto|constructor]]. apply get_some in F0. stp E1. stp E1. injection E1 as <- <-.
      destruct (Hcall (GoSeparate 0 false force (clk (rg_get_name a r))) _ _ _ (proj2 HR _ _ _ F0) ltac:(split; [exact I|reflexivity]) F1) as (H1 & _).
      destruct (Hcall (if force then GoForcePop else GoPop) _ _ _ H1 ltac:(destruct force; split; exact I) F2) as (H2 & _ & H3). split; [now apply RP_set|].
      destruct (out_ptr s1); simpl; auto. }
    stp E. destruct (X _ _ eq_refl) as [X1 X2]. stp E. injection E as <- <-. destruct (IH _ _ _ X1 F2) as [Y1 Y2]. split; auto.
    rewrite map_app. apply Forall_app. auto.
  Qed.
  Lemma lift_push p x c1 c2 r l r' : RP r -> op_typed (sm_op x) -> (match x with SmList _ _ => False | _ => True end) ->
    rg_call_pusher ne p x c1 c2 r = Ok (l, r') -> RP r' /\ Forall R l.
  Proof.
    intros HR T NL E. unfold rg_call_pusher in E. destruct (find_obj (rp_obj p) (rg_arr r)) as [[pos g]|] eqn:EF; [|injection E as <- <-; auto].
    apply RegProofs.find_obj_some in EF. unfold g_call_pusher in E. destruct (pusher_live _ _); cbn beta in E; cbn [bind] in E.
    - match type of E with context [g_call ne ?op g] => destruct (g_call ne op g) as [[q g']| |] eqn:EC; cbn [bind] in E; try discriminate E end.
      injection E as <- <-. assert (PL : g_plain (GoPush x (pu_handler (rp_pu p)) c1 c2)) by (split; [split; assumption|exact I]).
      destruct (Hcall _ _ _ _ (proj2 HR _ _ _ EF) PL EC) as (H1 & H2 & _). split; auto. now apply RP_set.
    - injection E as <- <-. split; auto. apply RP_set; auto. eapply (proj2 HR); eauto.
  Qed.
  Lemma lift_del n r b r' : RP r -> rg_del n r = Ok (b, r') -> RP r'.
  Proof.
    intros [A B] E. unfold rg_del in E. destruct (_ =? bad_id); [injection E as _ <-; split; auto|]. st E. destruct (a <? _)%nat; [|discriminate].
    destruct (d_free_id _ _) as [b0 d]. injection E as _ <-. split; [exact A|]. intros p s g H. simpl in H. apply nth_set in H as [H|H]; [discriminate|eauto].
  Qed.
  Lemma lift_enable v r : RP r -> RP (rg_enable v r).
  Proof.
    intros [A B]. split; [exact A|]. intros pos s g E. simpl in E. rewrite nth_error_map in E.
    destruct (nth_error (rg_arr r) pos) as [[[s0 g0]|]|] eqn:E0; simpl in E; try discriminate. injection E as _ <-. apply P_enable; eauto.
  Qed.
  Lemma lift_do g r q r' n : RP r -> y_open (YReg g) -> ev_typed (LAnswer n g q) -> rg_do ne g r = Ok (q, r') ->
    RP r' /\ Forall R (received_ev (LAnswer n g q)).
  Proof.
    intros HR HO HT E. destruct g as [e m now|id op|e m d c1 c2|force clk|v|v|m|id|id h|e m h now|p x c1 c2]; cbn [rg_do y_open ev_typed] in *; try contradiction.
    - stp E. injection E as <- <-. split; [eapply lift_create; eauto|constructor].
    - stp E. injection E as <- <-. assert (T : g_plain op).
      { destruct op as [[] ? ?| | | | | | |]; try contradiction; (split; [|exact I]); try exact I. split; [exact HT|exact I]. }
      destruct (lift_call _ _ _ _ _ HR T F) as (H1 & H2 & H3). split; auto. simpl. destruct (out_ptr s); auto.
    - stp E. injection E as <- <-. unfold rg_add_name in F. stp F. pose proof (lift_create _ _ _ _ _ _ HR HO F0) as H0.
      assert (PL : g_plain (GoAdd (SmRed d) c1 c2)) by (split; [split; [exact HT|exact I]|exact I]).
      destruct (lift_call _ _ _ _ _ H0 PL F) as (H1 & H2 & H3). split; auto. simpl. destruct (out_ptr s); auto.
    - stp E. injection E as <- <-. exact (lift_pop_loop _ _ _ _ _ _ HR F).
    - injection E as <- <-. split; [now apply lift_enable|constructor].
    - injection E as <- <-. split; [|constructor]. destruct HR as [A B]. split; auto.
    - stp E. injection E as <- <-. split; [eapply lift_del; eauto|constructor].
    - injection E as <- <-. split; [auto|constructor].
  Qed.

  (** ** Programs *)
  Lemma lift_ycall p d v c now cl s e s' : RP (y_reg s) -> op_typed (OpAdd v c) -> y_call ne p d (SmScalar now v c) cl s = Ok (e, s') ->
    RP (y_reg s') /\ Forall R (received_all e).
  Proof.
    intros HR T E. unfold y_call in E. stp E. rename l into recs. rename r into r1.
    assert (X : RP r1 /\ Forall R recs). { destruct p as [p|]; cbn [rg_call_opt] in F; [|injection F as <- <-; auto]. exact (lift_push p (SmScalar now v c) _ _ _ _ _ HR T I F). }
    destruct X as [X1 X2]. st E. injection E as <- <-. split; [exact X1|]. clear - F0 X2. unfold y_deliver in F0.
    destruct recs as [|x recs]; [injection F0 as <-; constructor|]. destruct d as [id|n].
    - destruct (y_alive _); [|discriminate]. injection F0 as <-. unfold w_deliver. destruct (rg_get_name id _) as [|ch m]; [constructor|].
      inversion X2 as [|? ? A B]; subst. simpl. constructor; [exact A|]. clear - B. induction B; simpl; constructor; auto.
    - injection F0 as <-. inversion X2 as [|? ? A B]; subst. simpl. constructor; [exact A|]. clear - B. induction B; simpl; constructor; auto.
  Qed.
  Lemma to_i64_range z : i64 (to_i64 z).
  Proof. unfold to_i64, i64, i64_min, i64_max. pose proof (ReducerProofs.u64_range z). unfold two64 in *. change (2 ^ 63) with 9223372036854775808 in *. destruct (Z.ltb_spec (u64 z) 9223372036854775808); lia. Qed.
  Lemma received_app a b : received_all (a ++ b) = received_all a ++ received_all b.
  Proof. apply flat_map_app. Qed.
  Lemma lift_report rp cl s e s' : RP (y_reg s) -> ev_typed (LPoint (EvReport rp)) -> y_report ne rp cl s = Ok (e, s') ->
    RP (y_reg s') /\ Forall R (received_all e).
  Proof.
    intros HR [T1 T2] E. unfold y_report in E. destruct (nth_error (y_funs s) (rp_fun rp)) as [[p id|p to]|], (rp_sizes rp) as [[rd wr]|]; try discriminate.
    - eapply lift_ycall; eauto.
    - destruct T2 as [U1 U2]. assert (C : is_u64 (rp_count rp)) by apply T1.
      assert (T : forall z c, is_u64 c -> op_typed (OpAdd (to_i64 z) c)) by (intros z c U; split; [repeat constructor; apply to_i64_range|exact U]).
      stp E. stp E. stp E. injection E as <- <-.
      destruct (lift_ycall _ _ _ _ _ _ _ _ _ HR T1 F) as [A1 A2].
      destruct (lift_ycall _ _ _ _ _ _ _ _ _ A1 (T rd (if cp_sum p then rd else rp_count rp) ltac:(destruct (cp_sum p); auto)) F0) as [B1 B2].
      destruct (lift_ycall _ _ _ _ _ _ _ _ _ B1 (T wr (if cp_sum p then wr else rp_count rp) ltac:(destruct (cp_sum p); auto)) F1) as [C1 C2].
      split; auto. rewrite !received_app. rewrite !Forall_app. auto.
  Qed.
  Lemma lift_events cl es : forall s e s', RP (y_reg s) -> Forall ev_typed e -> y_events ne es cl s = Ok (e, s') -> RP (y_reg s') /\ Forall R (received_all e).
  Proof.
    induction es as [|x es IH]; intros s e s' HR HT E; cbn [y_events] in E; [injection E as <- <-; split; [auto|constructor]|].
    stp E. stp E. injection E as <- <-. inversion HT as [|? ? T1 T2]; subst. apply Forall_app in T2 as [T2 T3].
    assert (X : RP (y_reg s0) /\ Forall R (received_all l)).
    { destruct x; [injection F as <- <-; split; [auto|constructor]| |injection F as <- <-; split; [auto|constructor]]. eapply lift_report; eauto. }
    destruct X as [X1 X2]. destruct (IH _ _ _ X1 T3 F0) as [Y1 Y2]. split; auto.
    change (received_all (LPoint x :: l ++ l0)) with (received_all (l ++ l0)). rewrite received_app. apply Forall_app. auto.
  Qed.
  Lemma lift_roles en n now order : forall r ids r', RP r -> (forall k, env_typed (en k)) -> create_roles ne order en n now r = Ok (ids, r') -> RP r'.
  Proof.
    induction order as [|k order IH]; intros r ids r' HR HE E; cbn [create_roles] in E; [injection E as _ <-; auto|].
    stp E. stp E. injection E as _ <-. exact (IH _ _ _ (lift_create _ _ _ _ _ _ HR (HE k) F) HE F0).
  Qed.
  Lemma handlers l : received_all (map (fun q : name * adata => LHandler (fst q) (snd q)) l) = map snd l.
  Proof. induction l; simpl; [reflexivity|]. now rewrite IHl. Qed.
  Lemma lift_ydo op s e s' : RP (y_reg s) -> y_open op -> Forall ev_typed e -> y_do ne op s = Ok (e, s') -> RP (y_reg s') /\ Forall R (received_all e).
  Proof.
    intros HR HO HT E. destruct op as [id|en m now|id sum|order en m sum now|op0 cl|g|force clk|clk].
    5: { cbn [y_do] in E. destruct (y_typed op0 s); [|injection E as <- <-; split; [auto|constructor]]. destruct (m_do op0 (y_pts s)) as [es pts].
         exact (lift_events cl es (mk_sys (y_wrt s) (y_alive s) (y_funs s) pts) e s' HR HT E). }
    all: cbn [y_do] in E; destruct (y_alive s); cbn [negb] in E; try discriminate E.
    - unfold y_meter_id in E. st E. destruct a; injection E as <- <-; split; auto; repeat constructor.
    - unfold y_meter_name in E. stp E. apply lift_create in F; auto. unfold y_meter_id in E. st E. destruct a; injection E as <- <-; split; auto; repeat constructor.
    - unfold y_comp_id in E. st E. destruct a; injection E as <- <-; split; auto; repeat constructor.
    - unfold y_comp_name, rg_composite_name in E. cbn [bind] in E. stp E. stp F. apply lift_roles in F0; auto. st F. injection F as <- <-.
      destruct a; injection E as <- <-; split; auto; repeat constructor.
    - stp E. injection E as <- <-. inversion HT; subst. destruct (lift_do _ _ _ _ (about g (y_reg s)) HR HO H1 F) as [A B]. split; [exact A|].
      unfold received_all. cbn [flat_map]. rewrite app_nil_r. exact B.
    - unfold w_pushout in E. stp E. stp F. pose proof (lift_pop_loop _ _ _ _ _ _ HR F0) as [A B].
      assert (X : RP (w_reg w) /\ Forall R (map snd l)) by (destruct (w_handler (y_wrt s)); [injection F as <- <-; auto|]; destruct l0; [injection F as <- <-; split; [exact A|constructor]|discriminate F]).
      injection E as <- <-. destruct X as [X1 X2]. split; [exact X1|]. rewrite received_app, handlers. apply Forall_app. split; [exact X2|constructor].
    - unfold w_pushout in E. stp E. stp F. pose proof (lift_pop_loop _ _ _ _ _ _ HR F0) as [A B].
      assert (X : RP (w_reg w) /\ Forall R (map snd l)) by (destruct (w_handler (y_wrt s)); [injection F as <- <-; auto|]; destruct l0; [injection F as <- <-; split; [exact A|constructor]|discriminate F]).
      injection E as <- <-. destruct X as [X1 X2]. rewrite handlers. split; [|exact X2]. split; [exact (proj1 X1)|]. intros [|pos] s0 g H; discriminate H.
  Qed.
  Lemma lift_yrun ops : forall s log s', RP (y_reg s) -> Forall y_open ops -> Forall ev_typed log -> y_run ne s ops = Ok (log, s') -> Forall R (received_all log).
  Proof.
    induction ops as [|op ops IH]; intros s log s' HR HO HT E; cbn [y_run] in E; [injection E as <- _; constructor|].
    stp E. stp E. injection E as <- <-. inversion HO; subst. apply Forall_app in HT as [T1 T2]. destruct (lift_ydo _ _ _ _ HR H1 T1 F) as [A B].
    rewrite received_app. apply Forall_app. eauto.
  Qed.
End Lift.
