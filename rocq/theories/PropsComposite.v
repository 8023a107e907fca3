(** Property C53: composite pushers. *)
From Coq Require Import ZArith List Bool Arith Lia Ascii.
From Verif Require Import Base SortFacts ModelTypes ModelReducer SpecReducer ModelSeparator SpecSeparator ModelAggregator SpecAggregator AggFinal
  ModelRegistry SpecRegistry RegProofs RegFinal PropsReducer PropsSeparator PropsAggregator PropsRegistry ModelComposite.
Import ListNotations.
Local Open Scope Z_scope.

(** * Specification *)
(** [pu] feeds the aggregator now registered under [n] (delivering to a handler iff [h]); nothing is fed if [n] is empty. *)
Definition feeds (r : registry) (n : name) (h : bool) (pu : option rpusher) : Prop :=
  match pu with
  | None => n = []
  | Some p => exists id s g, registered r n id s g /\ g_id g = true /\ p = mk_rpusher s (mk_pusher true h)
  end.
(** [id] is the identifier of [n]; the invalid identifier for the empty name.  The aggregator was not cleared (see C27). *)
Definition id_of (r : registry) (id : Z) (n : name) : Prop :=
  (n = [] /\ id = bad_id) \/ (exists s g, registered r n id s g /\ g_id g = true).
(** The push that a report makes to the aggregator named [m], if that is [n]. *)
Definition routed (m n : name) (x : sample) (h : bool) (c1 c2 : Z) : list gop :=
  if name_eqb m n then [GoPush x h c1 c2] else [].
Definition routed_recs (m n : name) (l : list adata) : list (list adata) := if name_eqb m n then [l] else [].
Definition int64 (x : Z) : Prop := - 2 ^ 63 <= x < 2 ^ 63.

(** The names stay registered and are not cleared. *)
Definition leaves (names : list name) (op : rgop) : Prop :=
  match op with RgDel m => ~ In m names | RgCall _ (GoClear _ _) => False | _ => True end.

(* ---- proof ---- *)
Lemma to_i64_u64 x : int64 x -> to_i64 (u64 x) = x.
Proof.
  unfold int64, to_i64, u64. change two64 with 18446744073709551616. change (2 ^ 63) with 9223372036854775808. intros H. rewrite Z.mod_mod by lia.
  destruct (Z.lt_ge_cases x 0) as [L|L].
  - rewrite <- (Z.mod_add x 1) by lia. rewrite Z.mod_small by lia. destruct (Z.ltb_spec (x + 1 * 18446744073709551616) 9223372036854775808); lia.
  - rewrite Z.mod_small by lia. destruct (Z.ltb_spec x 9223372036854775808); lia.
Qed.

Section Proofs.
  Variable ne : nat -> list Z -> list Z.
  Variable o : rgopts.
  Variable N : nat.
  Hypothesis F : fits o N.

  Lemma reg_sl k r n id s g : RInv o k r -> (k <= N)%nat -> (registered r n id s g <-> n <> [] /\ slot o r n = Some (id, s, g)).
  Proof. apply registered_slot. exact F. Qed.

  (** One role *)
  Lemma opt_push k r m h pu x c1 c2 l r' : RInv o k r -> (k <= N)%nat -> feeds r m h pu -> rg_call_opt ne pu x c1 c2 r = Ok (l, r') ->
    RInv o k r' /\ (m = [] -> l = []) /\
    (forall n id s g, registered r n id s g -> exists outs g', g_run ne g (routed m n x h c1 c2) = Ok (outs, g') /\
       registered r' n id s g' /\ g_id g' = g_id g /\ map out_handler outs = routed_recs m n l) /\
    (forall n id s g', registered r' n id s g' -> exists g, registered r n id s g).
  Proof.
    intros I Hk FE E. destruct pu as [p|]; cbn [feeds rg_call_opt] in *.
    - destruct FE as (id0 & s0 & g0 & RG & LI & ->). assert (RG' := RG). apply (reg_sl k r) in RG'; auto. destruct RG' as [HN SL0].
      destruct (push_sim ne o N F k r _ x c1 c2 l r' I Hk E) as (I' & SF & DI & _ & CE). cbn [rp_obj rp_pu] in CE.
      assert (KEY : forall n, n <> [] -> n <> m -> slot o r' n = slot o r n).
      { intros n HN' NE. specialize (CE n HN'). destruct (slot o r n) as [[[id s] g]|] eqn:S; [|exact CE].
        destruct (Nat.eqb_spec s s0) as [->|]; [|exact CE]. exfalso. apply NE.
        destruct (slot_live o k r _ _ _ _ I S) as (_ & E1 & A1). destruct (slot_live o k r _ _ _ _ I SL0) as (_ & E2 & A2).
        assert (P : posn (rgo_step o) id = posn (rgo_step o) id0) by (eapply (ri_uniq _ _ _ I); eassumption).
        destruct (ri_live _ _ _ I _ _ E1) as (j1 & _ & ->). destruct (ri_live _ _ _ I _ _ E2) as (j2 & _ & ->).
        apply (posn_inj o N F) in P. subst j2. apply (ri_inv _ _ _ I) in E1, E2. congruence. }
      assert (OWN : exists out g', g_call ne (GoPush x h c1 c2) g0 = Ok (out, g') /\ l = out_handler out /\ slot o r' m = Some (id0, s0, g')).
      { specialize (CE m HN). rewrite SL0, Nat.eqb_refl in CE. unfold cellof in CE. rewrite SL0 in CE. cbn [cell_do cl_agg] in CE.
        unfold g_call_pusher, pusher_live in CE. cbn [pu_id pu_handler] in CE. rewrite LI in CE. cbn [andb] in CE.
        destruct (g_call ne (GoPush x h c1 c2) g0) as [[out g']| |] eqn:EG; cbn [bind] in CE; try discriminate.
        exists out, g'. split; auto. injection CE as <- C1 C2 C3.
        assert (EN : m_find name_eqb m (d_dict (rg_dict r')) = Some id0) by (rewrite DI; apply (slot_live o k r _ _ _ _ I SL0)).
        split; auto. unfold rg_call_pusher in E. cbn [rp_obj rp_pu] in E. destruct (find_obj s0 (rg_arr r)) as [[pos gx]|] eqn:FO.
        - apply find_obj_some in FO. assert (pos = posn (rgo_step o) id0) as ->.
          { destruct (slot_live o k r _ _ _ _ I SL0) as (_ & E2 & A2). eapply (ri_uniq _ _ _ I); eassumption. }
          destruct (slot_live o k r _ _ _ _ I SL0) as (_ & E2 & A2). rewrite A2 in FO. injection FO as <-.
          unfold g_call_pusher, pusher_live in E. cbn [pu_id pu_handler] in E. rewrite LI in E. cbn [andb] in E. rewrite EG in E. cbn [bind] in E. injection E as <-.
          apply (set_slot o N F k r m id0 s0 g0 g' I E2 A2).
        - exfalso. destruct (slot_live o k r _ _ _ _ I SL0) as (_ & E2 & A2). exact (find_obj_none _ _ FO _ _ A2). }
      destruct OWN as (out & g1 & EG & -> & SL1).
      split; auto. split; [congruence|]. split.
      + intros n id s g R. apply (reg_sl k r) in R; auto. destruct R as [HN' SL]. unfold routed, routed_recs. destruct (name_eqb_spec m n) as [<-|NE].
        * rewrite SL0 in SL. injection SL as <- <- <-. exists [out], g1. cbn [g_run]. rewrite EG. cbn [bind]. split; auto. split; [apply (reg_sl k r'); auto|].
          split; [rewrite (id_call ne _ _ _ _ EG); reflexivity|reflexivity].
        * exists [], g. split; auto. split; [apply (reg_sl k r'); auto; rewrite KEY; auto|]. auto.
      + intros n id s g' R. apply (reg_sl k r') in R; auto. destruct R as [HN' SL]. destruct (name_eqb_spec m n) as [<-|NE].
        * rewrite SL1 in SL. injection SL as <- <- <-. eauto.
        * rewrite KEY in SL by auto. exists g'. apply (reg_sl k r); auto.
    - subst m. injection E as <- <-. split; auto. split; auto. split; [|eauto].
      intros n id s g R. exists [], g. unfold routed, routed_recs. destruct (name_eqb_spec [] n) as [<-|NE]; [destruct R; congruence|]. auto.
  Qed.
  Lemma feeds_after r r' m h pu :
    (forall n id s g, registered r n id s g -> exists g', registered r' n id s g' /\ g_id g' = g_id g) -> feeds r m h pu -> feeds r' m h pu.
  Proof.
    intros K FE. destruct pu as [p|]; auto. destruct FE as (id & s & g & R & L & E). destruct (K _ _ _ _ R) as (g' & R' & L'). exists id, s, g'. split; auto. split; congruence.
  Qed.
  Lemma g_run_app ops1 : forall ops2 g o1 g1 o2 g2, g_run ne g ops1 = Ok (o1, g1) -> g_run ne g1 ops2 = Ok (o2, g2) -> g_run ne g (ops1 ++ ops2) = Ok (o1 ++ o2, g2).
  Proof.
    induction ops1 as [|op ops1 IH]; intros ops2 g o1 g1 o2 g2 E1 E2; cbn [g_run app] in *; [now injection E1 as <- <-|].
    destruct (g_call ne op g) as [[r gx]| |]; cbn [bind] in *; try discriminate. destruct (g_run ne gx ops1) as [[os gy]| |] eqn:E; cbn [bind] in *; try discriminate.
    injection E1 as <- <-. rewrite (IH _ _ _ _ _ _ E E2). reflexivity.
  Qed.
End Proofs.

(** * C53: a report goes to the three aggregators, and nowhere else *)
(** [p] was made for the names [tn], [rn], [wn] ([] if absent); [l1 l2 l3] is what the three handlers receive.  The same name may
    be used in several roles. *)
Theorem C53_routes : forall ne o N r p tn rn wn th rh wh now span count x y c1 c2 c3 c4 c5 c6 l1 l2 l3 r',
  fits o N -> reachable ne o N r ->
  feeds r tn th (cp_time p) -> feeds r rn rh (cp_read p) -> feeds r wn wh (cp_write p) ->
  int64 x -> int64 y ->
  rg_call_composite ne p now span count (u64 x) (u64 y) c1 c2 c3 c4 c5 c6 r = Ok (l1, l2, l3, r') ->
  (forall n id s g, registered r n id s g -> exists outs g',
     g_run ne g (routed tn n (SmScalar now span count) th c1 c2 ++
                 routed rn n (SmScalar now x (if cp_sum p then u64 x else count)) rh c3 c4 ++
                 routed wn n (SmScalar now y (if cp_sum p then u64 y else count)) wh c5 c6) = Ok (outs, g') /\
     map out_handler outs = routed_recs tn n l1 ++ routed_recs rn n l2 ++ routed_recs wn n l3 /\
     registered r' n id s g') /\
  (forall n id s g', registered r' n id s g' -> exists g, registered r n id s g) /\
  (tn = [] -> l1 = []) /\ (rn = [] -> l2 = []) /\ (wn = [] -> l3 = []).
Proof.
  intros ne o N r p tn rn wn th rh wh now span count x y c1 c2 c3 c4 c5 c6 l1 l2 l3 r' F R F1 F2 F3 Hx Hy E.
  destruct (reach_inv ne o N r F R) as (k & Hk & I). unfold rg_call_composite in E. rewrite !to_i64_u64 in E by assumption.
  destruct (rg_call_opt ne (cp_time p) _ c1 c2 r) as [[k1 r1]| |] eqn:E1; cbn [bind] in E; try discriminate.
  destruct (rg_call_opt ne (cp_read p) _ c3 c4 r1) as [[k2 r2]| |] eqn:E2; cbn [bind] in E; try discriminate.
  destruct (rg_call_opt ne (cp_write p) _ c5 c6 r2) as [[k3 r3]| |] eqn:E3; cbn [bind] in E; try discriminate. injection E as -> -> -> ->.
  destruct (opt_push ne o N F k r tn th _ _ _ _ _ _ I Hk F1 E1) as (I1 & Z1 & A1 & B1).
  assert (F2' : feeds r1 rn rh (cp_read p)).
  { revert F2. apply feeds_after. intros n id s g Rg. destruct (A1 n id s g Rg) as (? & g' & _ & ? & ? & _). eauto. }
  destruct (opt_push ne o N F k r1 rn rh _ _ _ _ _ _ I1 Hk F2' E2) as (I2 & Z2 & A2 & B2).
  assert (F3' : feeds r2 wn wh (cp_write p)).
  { eapply feeds_after; [|eapply feeds_after; [|exact F3]].
    - intros n id s g Rg. destruct (A2 n id s g Rg) as (? & g' & _ & ? & ? & _). eauto.
    - intros n id s g Rg. destruct (A1 n id s g Rg) as (? & g' & _ & ? & ? & _). eauto. }
  destruct (opt_push ne o N F k r2 wn wh _ _ _ _ _ _ I2 Hk F3' E3) as (I3 & Z3 & A3 & B3).
  split; [|split; [|auto]].
  - intros n id s g Rg. destruct (A1 n id s g Rg) as (o1 & g1 & G1 & R1 & _ & M1). destruct (A2 n id s g1 R1) as (o2 & g2 & G2 & R2 & _ & M2).
    destruct (A3 n id s g2 R2) as (o3 & g3 & G3 & R3 & _ & M3). exists (o1 ++ o2 ++ o3), g3.
    split; [eapply g_run_app; [exact G1|eapply g_run_app; eassumption]|]. split; [rewrite !map_app; congruence|exact R3].
  - intros n id s g3 R3. destruct (B3 _ _ _ _ R3) as (g2 & R2). destruct (B2 _ _ _ _ R2) as (g1 & R1). eauto.
Qed.
Print Assumptions C53_routes.

(** * C53: creation *)
Section Creation.
  Variable ne : nat -> list Z -> list Z.
  Variable o : rgopts.
  Lemma pusher_of_id r id n h : id_of r id n -> exists pu, rg_pusher id h r = Ok pu /\ feeds r n h pu.
  Proof.
    intros [[-> ->]|(s & g & RG & L)].
    - exists None. split; reflexivity.
    - pose proof RG as (HN & GN & pos & EG). unfold rg_pusher. rewrite EG. cbn [bind]. eexists. split; [reflexivity|]. cbn [feeds]. exists id, s, g. split; auto. split; auto.
      unfold g_create_pusher. now rewrite L.
  Qed.
  Lemma feeds_none r n h : feeds r n h None <-> n = [].
  Proof. reflexivity. Qed.
  Lemma feeds_some r n h p : feeds r n h (Some p) -> n <> [].
  Proof. intros (id & s & g & (HN & _) & _). exact HN. Qed.

  Variable N : nat.
  Hypothesis F : fits o N.
  Lemma create_live k r e n now id r1 : RInv o k r -> (k <= N)%nat -> n <> [] -> rg_create ne e n now r = Ok (id, r1) ->
    exists k' s g, (k <= k' <= S k)%nat /\ RInv o k' r1 /\ slot o r1 n = Some (id, s, g) /\
      (slot o r n = Some (id, s, g) \/ (slot o r n = None /\ g_id g = true)) /\ (forall m, m <> n -> slot o r1 m = slot o r m).
  Proof.
    intros I Hk HN E. destruct (create_sim ne o N F k r e n now id r1 I Hk E) as [_ C2].
    destruct (C2 HN) as (k' & g1 & Hk' & I' & FL & EN & SO & CC & (s & SL) & SAME & _). exists k', s, g1. split; auto. split; auto. split; auto. split; auto.
    destruct (slot o r n) as [[[i s0] g0]|] eqn:ES.
    - left. destruct (slot_live o k r _ _ _ _ I ES) as (_ & EI & _). rewrite SAME in SL by congruence. congruence.
    - right. split; auto. unfold cell_create, cellof in CC. rewrite ES in CC. cbn [cl_agg cl_enabled cl_init] in CC.
      destruct (agg_new (rgo_agg o) (ce_clock e) (ce_rnd e) now) as [g0| |] eqn:EA; cbn [bind] in CC; try discriminate.
      assert (L0 : g_id g0 = true). { unfold agg_new in EA. destruct (sep_new _ _ _ _) as [sx| |]; cbn [bind] in EA; try discriminate. now injection EA as <-. }
      destruct (rg_enabled r); simpl negb in CC; cbv iota in CC; [|cbn [bind] in CC; injection CC as <- _; exact L0].
      destruct (rg_initializer r); [|cbn [bind] in CC; injection CC as <- _; exact L0].
      destruct (ce_init e) as [rd|]; [|cbn [bind] in CC; injection CC as <- _; exact L0].
      destruct (g_add_red ne (ce_c1 e) (ce_c2 e) rd g0) as [[b g']| |] eqn:EG; cbn [bind] in CC; try discriminate. injection CC as <- _.
      assert (EC : g_call ne (GoAdd (SmRed rd) (ce_c1 e) (ce_c2 e)) g0 = Ok (mk_sout (Some b) [] None, g')) by (cbn [g_call]; rewrite EG; reflexivity).
      rewrite (id_call ne _ _ _ _ EC). exact L0.
  Qed.
End Creation.

(** By identifiers: the pushers are those of the aggregators present; no aggregator at all, no pusher. *)
Theorem C53_by_id : forall r tid rid wid tn rn wn th rh wh sum,
  id_of r tid tn -> id_of r rid rn -> id_of r wid wn ->
  exists res, rg_composite tid rid wid th rh wh sum r = Ok res /\
    (res = None <-> tn = [] /\ rn = [] /\ wn = []) /\
    forall p, res = Some p -> cp_sum p = sum /\ feeds r tn th (cp_time p) /\ feeds r rn rh (cp_read p) /\ feeds r wn wh (cp_write p).
Proof.
  intros r tid rid wid tn rn wn th rh wh sum H1 H2 H3.
  destruct (pusher_of_id r tid tn th H1) as (p1 & E1 & F1). destruct (pusher_of_id r rid rn rh H2) as (p2 & E2 & F2). destruct (pusher_of_id r wid wn wh H3) as (p3 & E3 & F3).
  unfold rg_composite. rewrite E1, E2, E3. cbn [bind]. eexists. split; [reflexivity|]. split.
  - destruct p1 as [p1|]; [apply feeds_some in F1; split; [discriminate|tauto]|]. destruct p2 as [p2|]; [apply feeds_some in F2; split; [discriminate|tauto]|].
    destruct p3 as [p3|]; [apply feeds_some in F3; split; [discriminate|tauto]|]. cbn in *. tauto.
  - intros p E. assert (p = mk_cpusher p1 p2 p3 sum) as -> by (destruct p1, p2, p3; congruence). auto.
Qed.
Print Assumptions C53_by_id.

(** By name, whatever order the compiler creates the aggregators in. *)
Lemma create_roles_inv ne o e n now M : fits o M -> forall order k r ids r1, (k + length order <= M)%nat -> RInv o k r -> create_roles ne order e n now r = Ok (ids, r1) ->
  (forall q id s g, In q order -> registered r (n q) id s g -> g_id g = true) ->
  exists k', (k <= k' <= k + length order)%nat /\ RInv o k' r1 /\
    (forall m id s g, registered r m id s g -> registered r1 m id s g) /\
    (forall m id s g, registered r1 m id s g -> registered r m id s g \/ (g_id g = true /\ exists q, In q order /\ m = n q /\ forall id s g, ~ registered r m id s g)) /\
    forall q, In q order -> id_of r1 (ids q) (n q).
Proof.
  intros F. induction order as [|q order IH]; intros k r ids r1 L I E LV; cbn [create_roles length] in *.
  - injection E as <- <-. exists k. split; [lia|]. split; auto. split; auto. split; [auto|]. intros q [].
  - destruct (rg_create ne (e q) (n q) now r) as [[id0 r0]| |] eqn:EC; cbn [bind] in E; try discriminate.
    destruct (create_roles ne order e n now r0) as [[ids2 r2]| |] eqn:ER; cbn [bind] in E; try discriminate. injection E as <- <-.
    assert (STEP : exists k0, (k <= k0 <= S k)%nat /\ RInv o k0 r0 /\ id_of r0 id0 (n q) /\
       (forall m id s g, registered r m id s g -> registered r0 m id s g) /\
       (forall m id s g, registered r0 m id s g -> registered r m id s g \/ (g_id g = true /\ m = n q /\ forall id s g, ~ registered r m id s g))).
    { destruct (n q) as [|a nq] eqn:EN.
      - cbn in EC. injection EC as <- <-. exists k. split; [lia|]. split; auto. split; [left; auto|]. split; auto.
      - destruct (create_live ne o M F k r (e q) (a :: nq) now id0 r0 I ltac:(lia) ltac:(discriminate) EC) as (k0 & s0 & g0 & Hk0 & I0 & SL & CASE & SO).
        exists k0. split; auto. split; auto.
        assert (L0 : g_id g0 = true).
        { destruct CASE as [C|[_ C]]; auto. apply (LV q id0 s0); [left; auto|]. rewrite EN. apply (registered_slot o M F k r); auto; [lia|split; [discriminate|auto]]. }
        split; [right; exists s0, g0; split; auto; apply (registered_slot o M F k0 r0); auto; [lia|split; [discriminate|auto]]|].
        split.
        + intros m id s g R. apply (registered_slot o M F k r) in R; auto; [|lia]. destruct R as [HM S]. apply (registered_slot o M F k0 r0); auto; [lia|]. split; auto.
          destruct (name_eqb_spec m (a :: nq)) as [->|NE]; [|rewrite SO; auto]. destruct CASE as [C|[C _]]; congruence.
        + intros m id s g R. apply (registered_slot o M F k0 r0) in R; auto; [|lia]. destruct R as [HM S].
          destruct (name_eqb_spec m (a :: nq)) as [->|NE].
          * rewrite SL in S. injection S as <- <- <-. destruct CASE as [C|[C _]].
            -- left. apply (registered_slot o M F k r); auto. lia.
            -- right. split; auto. split; auto. intros i s g R. apply (registered_slot o M F k r) in R; auto; [|lia]. destruct R. congruence.
          * left. rewrite SO in S by auto. apply (registered_slot o M F k r); auto. lia. }
    destruct STEP as (k0 & Hk0 & I0 & ID0 & UP & DN).
    destruct (IH k0 r0 ids2 r2 ltac:(lia) I0 ER) as (k' & Hk' & I' & UP' & DN' & ID').
    { intros q' id s g IQ R. destruct (DN _ _ _ _ R) as [R'|[G _]]; auto. eapply LV; [right; exact IQ|exact R']. }
    exists k'. split; [lia|]. split; auto. split; auto. split.
    + intros m id s g R. destruct (DN' _ _ _ _ R) as [R'|(G & q' & IQ & -> & NR)].
      * destruct (DN _ _ _ _ R') as [R''|(G & -> & NR)]; auto. right. split; auto. exists q. split; [left; auto|auto].
      * right. split; auto. exists q'. split; [right; auto|]. split; auto. intros i s' g' R'. apply (NR i s' g'). auto.
    + intros q' [<-|IQ].
      * assert (role_eqb q q = true) as -> by (destruct q; auto). destruct ID0 as [A|(s & g & R & G)]; [left; auto|right; eauto].
      * destruct (role_eqb q' q) eqn:EQ; [|auto]. assert (q' = q) as -> by (destruct q', q; auto; discriminate).
        destruct ID0 as [A|(s & g & R & G)]; [left; auto|right; eauto].
Qed.

Theorem C53_by_name : forall ne o N r order e n h sum now res r1,
  fits o (N + length order) -> reachable ne o N r -> (forall k, In k order) ->
  (forall k id s g, registered r (n k) id s g -> g_id g = true) ->
  rg_composite_name ne order e n h sum now r = Ok (res, r1) ->
  (res = None <-> forall k, n k = []) /\
  (forall p, res = Some p -> cp_sum p = sum /\ feeds r1 (n RoTime) (h RoTime) (cp_time p) /\
     feeds r1 (n RoRead) (h RoRead) (cp_read p) /\ feeds r1 (n RoWrite) (h RoWrite) (cp_write p)) /\
  (forall m id s g, registered r m id s g -> registered r1 m id s g) /\
  (forall m id s g, registered r1 m id s g -> registered r m id s g \/ exists k, m = n k /\ forall id s g, ~ registered r m id s g).
Proof.
  intros ne o N r order e n h sum now res r1 F R ALL LV E.
  destruct (reach_inv ne o N r (fits_le o (N + length order) N ltac:(lia) F) R) as (k & Hk & I).
  unfold rg_composite_name in E. destruct (create_roles ne order e n now r) as [[ids r2]| |] eqn:ER; cbn [bind] in E; try discriminate.
  destruct (create_roles_inv ne o e n now (N + length order) F order k r ids r2 ltac:(lia) I ER) as (k' & Hk' & I' & UP & DN & ID); [eauto|].
  destruct (C53_by_id r2 (ids RoTime) (ids RoRead) (ids RoWrite) _ _ _ (h RoTime) (h RoRead) (h RoWrite) sum (ID _ (ALL _)) (ID _ (ALL _)) (ID _ (ALL _))) as (res' & E' & NO & SO).
  rewrite E' in E. cbn [bind] in E. injection E as <- <-. split; [|split; [exact SO|split; [exact UP|]]].
  - rewrite NO. split; [intros (A & B & C) []; auto|auto].
  - intros m id s g Rg. destruct (DN _ _ _ _ Rg) as [|(_ & q & _ & EQ & NR)]; eauto.
Qed.
Print Assumptions C53_by_name.

(** * C53: the pusher goes on feeding the same aggregators, whatever else happens, until one of its names is deleted or an aggregator cleared. *)
Section Keep.
  Variable ne : nat -> list Z -> list Z.
  Definition at_pos (r : registry) (pos s : nat) : Prop := exists g, nth_error (rg_arr r) pos = Some (Some (s, g)) /\ g_id g = true.
  Lemma keep_set r p x g1 pos s : nth_error (rg_arr r) p = Some (Some (x, g1)) -> forall g2, (g_id g1 = true -> g_id g2 = true) -> at_pos r pos s -> at_pos (rg_set p (Some (x, g2)) r) pos s.
  Proof.
    intros E g2 L (g & EG & G). unfold at_pos, rg_set. cbn [rg_arr]. destruct (Nat.eq_dec p pos) as [->|NE].
    - rewrite EG in E. injection E as <- <-. exists g2. split; auto. apply set_nth_same. eapply nth_error_lt; eauto.
    - exists g. split; auto. rewrite set_nth_other; auto.
  Qed.
  Lemma keep_create e n now r id r' pos s : rg_create ne e n now r = Ok (id, r') -> at_pos r pos s -> at_pos r' pos s.
  Proof.
    intros E (g & EG & G). destruct n as [|a n]; [injection E as _ <-; exists g; auto|]. unfold rg_create in E.
    destruct (d_create_id (ce_pick e) (a :: n) (rg_dict r)) as [id0 d]. destruct (d_id2pos id0 d) as [p| |]; cbn [bind] in E; try discriminate. cbv zeta in E.
    set (K := g <- agg_new _ _ _ _ ;; _) in E.
    assert (HK : K = Ok (id, r') -> nth_error (rg_arr r) p <> Some (Some (s, g)) -> at_pos r' pos s).
    { intros EK NP. unfold K in EK. destruct (agg_new _ _ _ _) as [g0| |]; cbn [bind] in EK; try discriminate.
      match type of EK with bind ?X _ = _ => destruct X as [g1| |]; cbn [bind] in EK; try discriminate end. injection EK as _ <-.
      exists g. split; auto. cbn [rg_arr]. rewrite set_nth_other; [|intros ->; contradiction]. apply resize_some. exact EG. }
    destruct (nth_error (rg_arr r) p) as [[ob|]|] eqn:EP.
    - injection E as _ <-. exists g. auto.
    - apply HK; auto. congruence.
    - apply HK; auto. congruence.
  Qed.
  Lemma keep_call id op r out r' pos s : rg_call ne id op r = Ok (out, r') -> (forall a b, op <> GoClear a b) -> at_pos r pos s -> at_pos r' pos s.
  Proof.
    intros E NC A. unfold rg_call in E. destruct (rg_get id r) as [[[p [x g]]|]| |] eqn:EG; cbn [bind] in E; try discriminate.
    - destruct (g_call ne op g) as [[o1 g1]| |] eqn:EC; cbn [bind] in E; try discriminate. injection E as <- <-. apply get_some in EG. eapply keep_set; eauto.
      intros L. rewrite (id_call ne _ _ _ _ EC). destruct op; auto. exfalso. eapply NC. reflexivity.
    - injection E as <- <-. exact A.
  Qed.
  Lemma keep_pop f clk : forall is r l r' pos s, rg_pop_loop ne f clk is r = Ok (l, r') -> at_pos r pos s -> at_pos r' pos s.
  Proof.
    induction is as [|i is IH]; intros r l r' pos s E A; cbn [rg_pop_loop] in E; [injection E as _ <-; exact A|].
    destruct (d_pos2id i (rg_dict r)) as [id| |]; cbn [bind] in E; try discriminate. destruct (rg_get id r) as [[[p [x g]]|]| |] eqn:EG; cbn [bind] in E; try discriminate.
    - destruct (g_call ne (GoSeparate _ _ _ _) g) as [[o1 g1]| |] eqn:E1; cbn [bind] in E; try discriminate.
      destruct (g_call ne (if f then GoForcePop else GoPop) g1) as [[o2 g2]| |] eqn:E2; cbn [bind] in E; try discriminate.
      destruct (rg_pop_loop ne f clk is _) as [[l2 r2]| |] eqn:E3; cbn [bind] in E; try discriminate. injection E as _ <-.
      eapply IH; [exact E3|]. apply get_some in EG. eapply keep_set; eauto. intros L. rewrite (id_call ne _ _ _ _ E2). rewrite (id_call ne _ _ _ _ E1). destruct f; exact L.
    - destruct (rg_pop_loop ne f clk is r) as [[l2 r2]| |] eqn:E3; cbn [bind] in E; try discriminate. injection E as _ <-. eapply IH; eauto.
  Qed.
  Lemma keep_push p x c1 c2 r l r' pos s : rg_call_pusher ne p x c1 c2 r = Ok (l, r') -> at_pos r pos s -> at_pos r' pos s.
  Proof.
    intros E A. unfold rg_call_pusher in E. destruct (find_obj (rp_obj p) (rg_arr r)) as [[q g]|] eqn:FO; [|injection E as _ <-; exact A].
    apply find_obj_some in FO. unfold g_call_pusher in E. destruct (pusher_live (rp_pu p) g).
    - destruct (g_call ne (GoPush x (pu_handler (rp_pu p)) c1 c2) g) as [[o1 g1]| |] eqn:E1; cbn [bind] in E; try discriminate. injection E as _ <-.
      eapply keep_set; eauto. intros L. rewrite (id_call ne _ _ _ _ E1). exact L.
    - cbn [bind] in E. injection E as _ <-. eapply keep_set; eauto.
  Qed.

  Lemma keep_do o N k r op out r' n id s names : fits o N -> RInv o k r -> (k <= N)%nat -> rg_do ne op r = Ok (out, r') -> In n names -> leaves names op ->
    m_find name_eqb n (d_dict (rg_dict r)) = Some id -> at_pos r (posn (rgo_step o) id) s -> at_pos r' (posn (rgo_step o) id) s.
  Proof.
    intros F I Hk E IN LV EN A. destruct op as [e m now|id' g|e m d c1 c2|f clk|v|v|m|id'|id' h|e m h now|p x c1 c2]; cbn [rg_do leaves] in *.
    - destruct (rg_create ne e m now r) as [[i r1]| |] eqn:EC; cbn [bind] in E; try discriminate. injection E as _ <-. eapply keep_create; eauto.
    - destruct (rg_call ne id' g r) as [[o1 r1]| |] eqn:EC; cbn [bind] in E; try discriminate. injection E as _ <-. eapply keep_call; eauto. intros a b ->. exact LV.
    - unfold rg_add_name in E. destruct (rg_create ne e m (ri_ts (rd_info d)) r) as [[i r1]| |] eqn:EC; cbn [bind] in E; try discriminate.
      destruct (rg_call ne i (GoAdd (SmRed d) c1 c2) r1) as [[o1 r2]| |] eqn:EK; cbn [bind] in E; try discriminate. injection E as _ <-.
      eapply keep_call; [exact EK|discriminate|]. eapply keep_create; eauto.
    - unfold rg_pop_all in E. destruct (rg_pop_loop ne f clk _ r) as [[l r1]| |] eqn:EC; cbn [bind] in E; try discriminate. injection E as _ <-. eapply keep_pop; eauto.
    - injection E as _ <-. destruct A as (g & EG & G). exists (g_enable v g). split; auto. unfold rg_enable. cbn [rg_arr]. rewrite nth_error_map, EG. reflexivity.
    - injection E as _ <-. exact A.
    - destruct (rg_del m r) as [[b r1]| |] eqn:ED; cbn [bind] in E; try discriminate. injection E as _ <-. unfold rg_del, d_get_id in ED.
      destruct (m_find name_eqb m (d_dict (rg_dict r))) as [i2|] eqn:E2; [|rewrite Z.eqb_refl in ED; injection ED as _ <-; exact A].
      destruct (i2 =? bad_id); [injection ED as _ <-; exact A|]. destruct (ri_live _ _ _ I _ _ E2) as (j & Hj & ->). rewrite (id2pos_ok o N F k r j I) in ED by lia. cbn [bind] in ED.
      destruct (_ <? _)%nat; [|discriminate]. destruct (d_free_id _ _) as [b' d']. injection ED as _ <-. destruct A as (g & EG & G). exists g. split; auto. cbn [rg_arr].
      rewrite set_nth_other; auto. intros P. destruct (ri_live _ _ _ I _ _ EN) as (j' & Hj' & ->). apply (posn_inj o N F) in P. subst j'.
      apply (ri_inv _ _ _ I) in E2, EN. apply LV. congruence.
    - injection E as _ <-. exact A.
    - destruct (rg_pusher id' h r) as [pu| |]; cbn [bind] in E; try discriminate. injection E as _ <-. exact A.
    - unfold rg_pusher_name in E. destruct (rg_create ne e m now r) as [[i r1]| |] eqn:EC; cbn [bind] in E; try discriminate.
      destruct (rg_pusher i h r1) as [pu| |]; cbn [bind] in E; try discriminate. injection E as _ <-. eapply keep_create; eauto.
    - destruct (rg_call_pusher ne p x c1 c2 r) as [[l r1]| |] eqn:EC; cbn [bind] in E; try discriminate. injection E as _ <-. eapply keep_push; eauto.
  Qed.
  Lemma keep_run o N names : fits o N -> forall ops k r outs r' n id s, (k + length ops <= N)%nat -> RInv o k r -> rg_run ne r ops = Ok (outs, r') -> In n names -> Forall (leaves names) ops ->
    m_find name_eqb n (d_dict (rg_dict r)) = Some id -> at_pos r (posn (rgo_step o) id) s -> at_pos r' (posn (rgo_step o) id) s.
  Proof.
    intros F. induction ops as [|op ops IH]; intros k r outs r' n id s L I E IN LV EN A; cbn [rg_run length] in *; [injection E as _ <-; exact A|].
    destruct (rg_do ne op r) as [[o1 r1]| |] eqn:E1; cbn [bind] in E; try discriminate. destruct (rg_run ne r1 ops) as [[os r2]| |] eqn:E2; cbn [bind] in E; try discriminate. injection E as _ <-.
    destruct (do_inv ne o N F k r op o1 r1 I ltac:(lia) E1) as (k' & Hk' & I' & _ & KN & _).
    inversion LV as [|? ? LV1 LV2]; subst. eapply (IH k' r1); eauto; [lia| |].
    - apply KN; auto. intros m ->. cbn in LV1. intros <-. contradiction.
    - eapply (keep_do o N k r); eauto. lia.
  Qed.
End Keep.

Theorem C53_lasting : forall ne o N r ops outs r' names n h pu,
  fits o (N + length ops) -> reachable ne o N r -> rg_run ne r ops = Ok (outs, r') -> In n names -> Forall (leaves names) ops ->
  feeds r n h pu -> feeds r' n h pu.
Proof.
  intros ne o N r ops outs r' names n h pu F R E IN LV FE. destruct pu as [p|]; [|exact FE]. destruct FE as (id & s & g & RG & L & ->).
  destruct (reach_inv ne o N r (fits_le o (N + length ops) N ltac:(lia) F) R) as (k & Hk & I).
  pose proof (registered_slot o (N + length ops) F k r n id s g I ltac:(lia)) as RS. apply RS in RG. destruct RG as [HN SL].
  destruct (slot_live o k r _ _ _ _ I SL) as (_ & EN & EA).
  assert (A : at_pos r' (posn (rgo_step o) id) s).
  { eapply (keep_run ne o (N + length ops) names F ops k r outs r' n id s); eauto; [lia|]. exists g. auto. }
  destruct A as (g' & EA' & L'). exists id, s, g'. split; [|auto].
  destruct (run_inv ne o ops k r outs r' (fits_le o (N + length ops) (k + length ops) ltac:(lia) F) I E) as (k' & Hk' & I' & _ & D & _).
  apply (registered_slot o (N + length ops) F k' r' n id s g' I' ltac:(lia)). split; auto. unfold slot. rewrite D with (id := id); auto; [rewrite EA'; auto|].
  intros ID. rewrite Forall_forall in LV. specialize (LV _ ID). cbn in LV. contradiction.
Qed.
Print Assumptions C53_lasting.

(** Example: rx_r has the names "c" and "b"; the composite uses "b" for the time, a new name "d" for the read size, nothing for the
    write size, with summary sizes; then further calls, then a report. *)
Definition cx_n (k : role) : name := match k with RoTime => nb | RoRead => ["d"%char] | RoWrite => [] end.
Definition cx_run : outcome (option cpusher * registry) := rg_composite_name ne_rev [RoWrite; RoTime; RoRead] (fun _ => rx_e) cx_n (fun k => match k with RoTime => true | _ => false end) true 120 rx_r.
Definition cx_p : cpusher := match cx_run with Ok (Some p, _) => p | _ => mk_cpusher None None None false end.
Definition cx_r : registry := match cx_run with Ok (_, r) => r | _ => rx_r end.
Definition cx_ops : list rgop := [RgDel nc; RgCall 13 (GoAdd (SmScalar 131 1 1) 0 0); RgPopAll false (fun _ => 0)].
Definition cx_r2 : registry := match rg_run ne_rev cx_r cx_ops with Ok (_, r) => r | _ => cx_r end.
Definition cx_out := rg_call_composite ne_rev cx_p 145 33 2 (u64 500) (u64 600) 0 0 0 0 0 0 cx_r2.
Definition cx_r3 : registry := match cx_out with Ok (_, r) => r | _ => cx_r2 end.
Definition feeds_b (r : registry) (id : Z) (h : bool) (pu : option rpusher) : bool :=
  match rg_get id r, pu with
  | Ok (Some (_, (s, g))), Some p => g_id g && (rp_obj p =? s)%nat && pu_id (rp_pu p) && Bool.eqb (pu_handler (rp_pu p)) h
  | _, _ => false
  end.
Lemma feeds_b_ok r n id h pu : n <> [] -> rg_get_name id r = n -> feeds_b r id h pu = true -> feeds r n h pu.
Proof.
  intros HN GN B. unfold feeds_b in B. destruct (rg_get id r) as [[[pos [s g]]|]| |] eqn:E; try discriminate. destruct pu as [p|]; [|discriminate].
  apply andb_prop in B. destruct B as [B B4]. apply andb_prop in B. destruct B as [B B3]. apply andb_prop in B. destruct B as [B1 B2].
  apply Nat.eqb_eq in B2. apply eqb_prop in B4. exists id, s, g. split; [split; [exact HN|split; [exact GN|eauto]]|]. split; [exact B1|].
  destruct p as [ob [pi ph]]. cbn in *. subst. reflexivity.
Qed.
Example C53_witness : cx_run = Ok (Some cx_p, cx_r) /\ (forall k, In k [RoWrite; RoTime; RoRead]) /\
  (exists outs, rg_run ne_rev cx_r cx_ops = Ok (outs, cx_r2)) /\ Forall (leaves [nb; ["d"%char]]) cx_ops /\
  feeds cx_r2 nb true (cp_time cx_p) /\ feeds cx_r2 ["d"%char] false (cp_read cx_p) /\ feeds cx_r2 [] false (cp_write cx_p) /\
  (exists l1 l2 l3, cx_out = Ok (l1, l2, l3, cx_r3) /\ length l1 = 1%nat /\ l2 = [] /\ l3 = []) /\
  match rg_get 18 cx_r3 with Ok (Some (_, (_, g))) => r_total (s_red (g_sep g)) = 500 | _ => False end.
Proof.
  split; [vm_compute; reflexivity|]. split; [intros []; cbn; tauto|].
  split; [eexists; vm_compute; reflexivity|]. split; [repeat constructor; cbn; unfold nb, nc; intuition congruence|].
  split; [apply (feeds_b_ok _ _ 13); [discriminate|vm_compute; reflexivity|vm_compute; reflexivity]|].
  split; [apply (feeds_b_ok _ _ 18); [discriminate|vm_compute; reflexivity|vm_compute; reflexivity]|].
  split; [vm_compute; reflexivity|]. split; [eexists _, _, _; split; [vm_compute; reflexivity|auto]|]. vm_compute. reflexivity.
Qed.
