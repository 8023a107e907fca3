(** The registry properties in the form stated in PropsRegistry. *)
From Coq Require Import ZArith List Bool Permutation Lia Arith Ascii.
From Verif Require Import Base ModelTypes ModelAvg ModelReducer SpecReducer ModelSeparator SpecSeparator
  ModelAggregator SpecAggregator ModelRegistry SpecRegistry RegProofs.
Import ListNotations.
Local Open Scope Z_scope.

Lemma get_some id r pos ob : rg_get id r = Ok (Some (pos, ob)) -> nth_error (rg_arr r) pos = Some (Some ob).
Proof.
  unfold rg_get. intros E. destruct (id =? bad_id); try discriminate. destruct (d_id2pos id (rg_dict r)) as [p| |]; cbn [bind] in E; try discriminate.
  destruct (nth_error (rg_arr r) p) as [[ob'|]|] eqn:E1; try discriminate. injection E as -> ->. auto.
Qed.
Section Final.
  Variable ne : nat -> list Z -> list Z.
  Variable o : rgopts.

  Lemma fits_le n m : (m <= n)%nat -> fits o n -> fits o m.
  Proof. intros L (A & B & C). split; auto. split; auto. nia. Qed.

  Section Bounded.
  Variable N : nat.
  Hypothesis F : fits o N.
  Let step := rgo_step o.

  (** Any call, clean or not, keeps the invariant and never revives an object. *)
  Lemma call_inv k r id op out r' : RInv o k r -> (k <= N)%nat -> rg_call ne id op r = Ok (out, r') ->
    RInv o k r' /\ rg_dict r' = rg_dict r /\ rg_next r' = rg_next r /\ same_flags r r' /\
    (forall p s g, nth_error (rg_arr r') p = Some (Some (s, g)) -> exists g', nth_error (rg_arr r) p = Some (Some (s, g'))).
  Proof.
    intros I Hk E. unfold rg_call in E. destruct (rg_get id r) as [[[pos [s g]]|]| |] eqn:EG; cbn [bind] in E; try discriminate.
    - destruct (g_call ne op g) as [[o1 g1]| |]; cbn [bind] in E; try discriminate. injection E as <- <-.
      assert (EA : nth_error (rg_arr r) pos = Some (Some (s, g))).
      { unfold rg_get in EG. destruct (id =? bad_id); try discriminate. destruct (d_id2pos id (rg_dict r)) as [p| |]; cbn [bind] in EG; try discriminate.
        destruct (nth_error (rg_arr r) p) as [[ob|]|] eqn:E1; try discriminate. injection EG as -> ->. auto. }
      destruct (ri_arr _ _ _ I _ _ _ EA) as (_ & n & id' & EN & ->).
      destruct (set_slot o N F k r n id' s g g1 I EN EA) as (I' & _). split; auto. split; auto. split; auto. split; [split; reflexivity|].
      intros p s' g' H. simpl in H. destruct (Nat.eq_dec (posn (rgo_step o) id') p) as [<-|NE].
      + rewrite set_nth_same in H by (now apply nth_error_lt in EA). injection H as <- <-. eauto.
      + rewrite set_nth_other in H by auto. eauto.
    - injection E as <- <-. split; auto. split; auto. split; auto. split; [split; reflexivity|]. eauto.
  Qed.

  Definition live_obj (r : registry) (s : nat) : Prop := exists p g, nth_error (rg_arr r) p = Some (Some (s, g)).
  (** Objects of r' are objects of r or younger than r. *)
  Definition succ_of (r r' : registry) : Prop :=
    (rg_next r <= rg_next r')%nat /\ forall s, live_obj r' s -> live_obj r s \/ (rg_next r <= s)%nat.
  Lemma succ_refl r : succ_of r r. Proof. split; auto. Qed.
  Lemma succ_trans a b c : succ_of a b -> succ_of b c -> succ_of a c.
  Proof. intros [A1 A2] [B1 B2]. split; [lia|]. intros s H. destruct (B2 s H) as [H1|H1]; [auto|right; lia]. Qed.
  Lemma succ_sub r r' : rg_next r' = rg_next r ->
    (forall p s g, nth_error (rg_arr r') p = Some (Some (s, g)) -> exists g', nth_error (rg_arr r) p = Some (Some (s, g'))) -> succ_of r r'.
  Proof. intros A B. split; [lia|]. intros s (p & g & H). left. destruct (B _ _ _ H) as (g' & H'). exists p, g'. auto. Qed.

  Lemma create_succ e n now r id r' : rg_create ne e n now r = Ok (id, r') -> succ_of r r'.
  Proof.
    intros E. destruct n as [|a n]; [injection E as <- <-; apply succ_refl|]. unfold rg_create in E.
    destruct (d_create_id (ce_pick e) (a :: n) (rg_dict r)) as [id0 d].
    destruct (d_id2pos id0 d) as [pos| |]; cbn [bind] in E; try discriminate. cbv zeta in E.
    set (K := g <- agg_new _ _ _ _ ;; _) in E.
    assert (HK : K = Ok (id, r') -> succ_of r r').
    { intros EK. unfold K in EK. destruct (agg_new _ _ _ _) as [g| |]; cbn [bind] in EK; try discriminate.
      set (gi := if negb _ then _ else _) in EK. clearbody gi. destruct gi as [g1| |]; cbn [bind] in EK; try discriminate. injection EK as <- <-.
      split; [simpl; lia|]. intros s (p & x & H). simpl in H. destruct (Nat.eq_dec pos p) as [<-|NE].
      - rewrite set_nth_same in H by (pose proof (resize_length (S pos) (rg_arr r)); lia). injection H as <- <-. right. simpl. lia.
      - rewrite set_nth_other in H by auto. apply resize_some in H. left. exists p, x. auto. }
    clearbody K. destruct (nth_error (rg_arr r) pos) as [[ob|]|]; auto. injection E as <- <-.
    apply succ_sub; simpl; eauto.
  Qed.

  Lemma slot_live k r n id s g : RInv o k r -> slot o r n = Some (id, s, g) -> live_obj r s /\ m_find name_eqb n (d_dict (rg_dict r)) = Some id /\
    nth_error (rg_arr r) (posn step id) = Some (Some (s, g)).
  Proof.
    intros I H. unfold slot in H. destruct (m_find name_eqb n (d_dict (rg_dict r))) as [i0|]; [|discriminate].
    fold step in H. destruct (nth_error (rg_arr r) (posn step i0)) as [[[s1 g1]|]|] eqn:E; try discriminate. injection H as -> -> ->.
    split; auto. exists (posn step id), g. auto.
  Qed.
  Lemma live_slot k r s : RInv o k r -> live_obj r s -> exists n id g, slot o r n = Some (id, s, g).
  Proof.
    intros I (p & g & H). destruct (ri_arr _ _ _ I _ _ _ H) as (_ & n & id & E & ->). exists n, id, g. unfold slot. now rewrite E, H.
  Qed.
  Lemma slots_succ k r k' r' : RInv o k r -> RInv o k' r' -> rg_next r' = rg_next r ->
    (forall n id s g, slot o r' n = Some (id, s, g) -> exists g', slot o r n = Some (id, s, g')) -> succ_of r r'.
  Proof.
    intros I I' A B. split; [lia|]. intros s H. left. destruct (live_slot k' r' s I' H) as (n & id & g & E).
    destruct (B _ _ _ _ E) as (g' & E'). apply (slot_live k r n id s g' I E').
  Qed.

  (** One call: invariant, names, objects. *)
  Lemma do_inv k r op out r' : RInv o k r -> (k <= N)%nat -> rg_do ne op r = Ok (out, r') ->
    exists k', (k <= k' <= S k)%nat /\ RInv o k' r' /\ succ_of r r' /\
      (forall n id, m_find name_eqb n (d_dict (rg_dict r)) = Some id -> (forall m, op = RgDel m -> m <> n) ->
                    m_find name_eqb n (d_dict (rg_dict r')) = Some id) /\
      (forall id, out = RId id -> id = bad_id \/ exists j, (1 <= j <= k')%nat /\ id = nth_id o j).
  Proof.
    intros I Hk E. destruct op as [e m now|id g|e m d c1 c2|f clk|v|v|m|id|id h|e m h now|p x c1 c2]; cbn [rg_do] in E.
    - destruct (rg_create ne e m now r) as [[id r1]| |] eqn:EC; cbn [bind] in E; try discriminate. injection E as <- <-.
      destruct (create_sim ne o N F k r e m now id r1 I Hk EC) as [C1 C2]. pose proof (create_succ _ _ _ _ _ _ EC) as SU.
      destruct m as [|a m].
      + destruct (C1 eq_refl) as [-> ->]. exists k. split; [lia|]. split; auto. split; auto. split; auto. intros id H. injection H as <-. auto.
      + destruct (C2 ltac:(discriminate)) as (k' & g1 & Hk' & I' & FL & EN & SO & _ & _ & SAME & IDX & FR). exists k'. split; auto. split; auto. split; auto. split.
        * intros n i H _. apply (ri_inv _ _ _ I'). rewrite IDX. apply (ri_inv _ _ _ I) in H. destruct (Z.eqb_spec i id) as [->|]; auto.
          destruct (m_find name_eqb (a :: m) (d_dict (rg_dict r))) as [i2|] eqn:E2.
          -- rewrite (SAME ltac:(discriminate)) in EN. rewrite EN in E2. injection E2 as <-. apply (ri_inv _ _ _ I) in EN. congruence.
          -- rewrite (FR eq_refl) in H. discriminate.
        * intros i H. injection H as <-. right. destruct (ri_live _ _ _ I' _ _ EN) as (j & Hj & ->). exists j. split; auto.
    - destruct (rg_call ne id g r) as [[o1 r1]| |] eqn:EC; cbn [bind] in E; try discriminate. injection E as <- <-.
      destruct (call_inv k r id g o1 r1 I Hk EC) as (I' & D & NX & _ & SB). exists k. split; [lia|]. split; auto. split; [apply succ_sub; auto|].
      split; [intros; now rewrite D|discriminate].
    - unfold rg_add_name in E.
      destruct (rg_create ne e m (ri_ts (rd_info d)) r) as [[id r1]| |] eqn:EC; cbn [bind] in E; try discriminate.
      destruct (rg_call ne id (GoAdd (SmRed d) c1 c2) r1) as [[o1 r2]| |] eqn:EK; cbn [bind] in E; try discriminate. injection E as <- <-.
      destruct (create_sim ne o N F k r e m _ id r1 I Hk EC) as [C1 C2]. pose proof (create_succ _ _ _ _ _ _ EC) as SU.
      destruct m as [|a m].
      + destruct (C1 eq_refl) as [-> ->]. unfold rg_call in EK. rewrite get_bad in EK. cbn [bind] in EK. injection EK as <- <-.
        exists k. split; [lia|]. split; auto. split; auto. split; auto. discriminate.
      + destruct (C2 ltac:(discriminate)) as (k' & g1 & Hk' & I' & FL & EN & SO & _ & (s & SLL) & SAME & IDX & FR).
        assert (EK' : exists g2, r2 = rg_set (posn step id) (Some (s, g2)) r1).
        { destruct (slot_live k' r1 _ _ _ _ I' SLL) as (_ & _ & EA).
          unfold rg_call in EK. unfold rg_get in EK. destruct (ri_live _ _ _ I' _ _ EN) as (j & Hj & ->).
          pose proof (id_range o N F j ltac:(lia)). pose proof (step_pos o N F).
          destruct (Z.eqb_spec (nth_id o j) bad_id); [lia|].
          rewrite (id2pos_ok o N F k' r1 j I') in EK by lia. cbn [bind] in EK. unfold step in EA. rewrite EA in EK. cbn [bind] in EK.
          destruct (g_call ne _ g1) as [[o2 g2]| |]; cbn [bind] in EK; try discriminate. injection EK as <- <-. eauto. }
        destruct EK' as (g2 & ->). destruct (slot_live k' r1 _ _ _ _ I' SLL) as (_ & _ & EA).
        destruct (set_slot o N F k' r1 _ id s g1 g2 I' EN EA) as (I2 & SN2 & SO2).
        exists k'. split; auto. split; auto. split; [|split; [|discriminate]].
        * eapply succ_trans; [exact SU|]. eapply slots_succ; [exact I'|exact I2|reflexivity|].
          intros n i s' x H. destruct (list_eq_dec ascii_dec n (a :: m)) as [->|NE].
          -- fold step in H. unfold step in H. rewrite SN2 in H. injection H as <- <- <-. eauto.
          -- rewrite SO2 in H by auto. eauto.
        * intros n i H _. simpl. apply (ri_inv _ _ _ I'). rewrite IDX. apply (ri_inv _ _ _ I) in H. destruct (Z.eqb_spec i id) as [->|]; auto.
          destruct (m_find name_eqb (a :: m) (d_dict (rg_dict r))) as [i2|] eqn:E2.
          -- rewrite (SAME ltac:(discriminate)) in EN. rewrite EN in E2. injection E2 as <-. apply (ri_inv _ _ _ I) in EN. congruence.
          -- rewrite (FR eq_refl) in H. discriminate.
    - destruct (rg_pop_all ne f clk r) as [[l r1]| |] eqn:EC; cbn [bind] in E; try discriminate. injection E as <- <-.
      destruct (pop_all_spec ne o N F f clk k r l r1 I Hk EC) as (I' & _ & D & NX & _ & SL). exists k. split; [lia|]. split; auto. split.
      + eapply slots_succ; [exact I|exact I'|exact NX|]. intros n id s g H. specialize (SL n). destruct (slot o r n) as [[[i0 s0] g0]|].
        * destruct SL as (g' & S1 & _). rewrite S1 in H. injection H as <- <- <-. eauto.
        * destruct SL. congruence.
      + split; [intros; now rewrite D|discriminate].
    - injection E as <- <-. destruct (enable_sim o k r v I) as [I' SL]. exists k. split; [lia|]. split; auto. split.
      + eapply slots_succ; [exact I|exact I'|reflexivity|]. intros n id s g H. rewrite SL in H. destruct (slot o r n) as [[[i0 s0] g0]|]; [|discriminate].
        injection H as <- <- <-. eauto.
      + split; [auto|discriminate].
    - injection E as <- <-. exists k. split; [lia|]. split; [destruct I; constructor; auto|]. split; [apply succ_sub; simpl; eauto|]. split; [auto|discriminate].
    - destruct (rg_del m r) as [[b r1]| |] eqn:EC; cbn [bind] in E; try discriminate. injection E as <- <-.
      destruct (del_sim o N F k r m b r1 I Hk EC) as (-> & I' & _ & SN & SO & MN & GN & _ & NX). exists k. split; [lia|]. split; auto. split; [|split; [|discriminate]].
      + eapply slots_succ; [exact I|exact I'|exact NX|]. intros n id s g H. destruct (list_eq_dec ascii_dec n m) as [->|NE]; [congruence|].
        rewrite SO in H by auto. eauto.
      + intros n id H D. specialize (D m eq_refl). assert (NE : n <> m) by congruence. specialize (SO n NE).
        destruct (ri_slot _ _ _ I _ _ H) as (s & g & ES). assert (SL : slot o r n = Some (id, s, g)) by (unfold slot; now rewrite H, ES).
        rewrite SL in SO. apply (slot_live k r1 _ _ _ _ I' SO).
    - injection E as <- <-. exists k. split; [lia|]. split; auto. split; [apply succ_refl|]. split; [auto|discriminate].
    - destruct (rg_pusher id h r); cbn [bind] in E; try discriminate. injection E as <- <-. exists k. split; [lia|]. split; auto. split; [apply succ_refl|]. split; [auto|discriminate].
    - unfold rg_pusher_name in E. destruct (rg_create ne e m now r) as [[id r1]| |] eqn:EC; cbn [bind] in E; try discriminate.
      destruct (rg_pusher id h r1) as [p| |]; cbn [bind] in E; try discriminate. injection E as <- <-.
      destruct (create_sim ne o N F k r e m now id r1 I Hk EC) as [C1 C2]. pose proof (create_succ _ _ _ _ _ _ EC) as SU.
      destruct m as [|a m].
      + destruct (C1 eq_refl) as [-> ->]. exists k. split; [lia|]. split; auto. split; auto. split; [auto|discriminate].
      + destruct (C2 ltac:(discriminate)) as (k' & g1 & Hk' & I' & FL & EN & SO & _ & _ & SAME & IDX & FR). exists k'. split; auto. split; auto. split; auto. split; [|discriminate].
        intros n i H _. apply (ri_inv _ _ _ I'). rewrite IDX. apply (ri_inv _ _ _ I) in H. destruct (Z.eqb_spec i id) as [->|]; auto.
          destruct (m_find name_eqb (a :: m) (d_dict (rg_dict r))) as [i2|] eqn:E2.
          -- rewrite (SAME ltac:(discriminate)) in EN. rewrite EN in E2. injection E2 as <-. apply (ri_inv _ _ _ I) in EN. congruence.
          -- rewrite (FR eq_refl) in H. discriminate.
    - destruct (rg_call_pusher ne p x c1 c2 r) as [[l r1]| |] eqn:EC; cbn [bind] in E; try discriminate. injection E as <- <-.
      destruct (push_sim ne o N F k r p x c1 c2 l r1 I Hk EC) as (I' & FL & D & _ & SL). exists k. split; [lia|]. split; auto. split; [|split; [intros; now rewrite D|discriminate]].
      unfold rg_call_pusher in EC. destruct (find_obj (rp_obj p) (rg_arr r)) as [[pos g]|] eqn:EF; [|injection EC as <- <-; apply succ_refl].
      apply find_obj_some in EF. destruct (g_call_pusher _ _ g) as [[recs g1]| |]; cbn [bind] in EC; try discriminate. injection EC as <- <-.
      apply succ_sub; auto. intros q s y H. simpl in H. destruct (Nat.eq_dec pos q) as [<-|NE].
      + rewrite set_nth_same in H by (now apply nth_error_lt in EF). injection H as <- <-. eauto.
      + rewrite set_nth_other in H by auto. eauto.
  Qed.
  End Bounded.

  Lemma run_inv : forall ops k r outs r', fits o (k + length ops) -> RInv o k r -> rg_run ne r ops = Ok (outs, r') ->
    exists k', (k <= k' <= k + length ops)%nat /\ RInv o k' r' /\ succ_of r r' /\
      (forall n id, m_find name_eqb n (d_dict (rg_dict r)) = Some id -> ~ In (RgDel n) ops ->
                    m_find name_eqb n (d_dict (rg_dict r')) = Some id) /\
      (forall id, In (RId id) outs -> id = bad_id \/ exists j, (1 <= j <= k')%nat /\ id = nth_id o j).
  Proof.
    induction ops as [|op ops IH]; intros k r outs r' F I E; simpl in E.
    - injection E as <- <-. exists k. split; [simpl; lia|]. split; auto. split; [apply succ_refl|]. split; auto. intros id [].
    - destruct (rg_do ne op r) as [[o1 r1]| |] eqn:E1; cbn [bind] in E; try discriminate.
      destruct (rg_run ne r1 ops) as [[os r2]| |] eqn:E2; cbn [bind] in E; try discriminate. injection E as <- <-. simpl in F.
      destruct (do_inv (k + S (length ops)) F k r op o1 r1 I ltac:(lia) E1) as (k1 & L1 & I1 & S1 & D1 & O1).
      destruct (IH k1 r1 os r2 (fits_le (k + S (length ops)) (k1 + length ops) ltac:(lia) F) I1 E2) as (k2 & L2 & I2 & S2 & D2 & O2).
      exists k2. split; [simpl; lia|]. split; auto. split; [eapply succ_trans; eauto|]. split.
      + intros n id H NI. apply D2; [|intros X; apply NI; now right]. apply D1; auto. intros m -> ->. apply NI. now left.
      + intros id [H|H]; auto. destruct (O1 id H) as [|(j & Hj & ->)]; auto. right. exists j. split; auto. lia.
  Qed.
  Lemma reach_inv n r : fits o n -> reachable ne o n r -> exists k, (k <= n)%nat /\ RInv o k r.
  Proof.
    intros F (ops & outs & L & E). destruct (run_inv ops 0 (rg_new o) outs r) as (k & Hk & I & _); auto.
    - now rewrite L.
    - apply RInv_new.
    - exists k. split; auto. lia.
  Qed.

  (** [registered] is [slot]. *)
  Lemma registered_slot N (F : fits o N) k r n id s g : RInv o k r -> (k <= N)%nat ->
    (registered r n id s g <-> n <> [] /\ slot o r n = Some (id, s, g)).
  Proof.
    intros I Hk. split.
    - intros (HN & GN & pos & EG). split; auto. unfold rg_get_name, d_get_name in GN.
      destruct (m_find Z.eqb id (d_index (rg_dict r))) as [n'|] eqn:E; [|congruence]. subst n'.
      apply (ri_inv _ _ _ I) in E. destruct (rg_get_live o N F k r n id I Hk E) as (s' & g' & E1 & E2).
      rewrite EG in E2. injection E2 as -> -> ->. unfold slot. now rewrite E, E1.
    - intros (HN & SL). split; auto. destruct (slot_live k r n id s g I SL) as (_ & E & EA).
      split; [apply (get_name_of o k r id n I E)|].
      destruct (rg_get_live o N F k r n id I Hk E) as (s' & g' & E1 & E2). rewrite EA in E1. injection E1 as <- <-. eauto.
  Qed.
  Lemma named_slot N (F : fits o N) k r id n : RInv o k r -> (k <= N)%nat -> n <> [] -> rg_get_name id r = n -> exists s g, slot o r n = Some (id, s, g).
  Proof.
    intros I Hk HN GN. unfold rg_get_name, d_get_name in GN.
    destruct (m_find Z.eqb id (d_index (rg_dict r))) as [n'|] eqn:E; [|congruence]. subst n'.
    apply (ri_inv _ _ _ I) in E. destruct (ri_slot _ _ _ I _ _ E) as (s & g & EA). exists s, g. unfold slot. now rewrite E, EA.
  Qed.

  (** ** C28 *)
  Lemma create_named N r n e now id r1 : fits o N -> reachable ne o N r -> n <> [] -> rg_create ne e n now r = Ok (id, r1) ->
    rg_get_name id r1 = n /\ (exists s g, registered r1 n id s g) /\
    (rg_get_name id r = [] \/ (rg_get_name id r = n /\ r1 = r)) /\
    (forall id', rg_get_name id' r <> [] -> rg_get_name id' r1 = rg_get_name id' r) /\
    (forall e' now', rg_create ne e' n now' r1 = Ok (id, r1)).
  Proof.
    intros F R HN E. destruct (reach_inv N r F R) as (k & Hk & I).
    destruct (create_sim ne o N F k r e n now id r1 I Hk E) as [_ C2].
    destruct (C2 HN) as (k' & g1 & Hk' & I' & FL & EN & SO & CC & (s & SL) & SAME & IDX & FR).
    assert (GN : rg_get_name id r1 = n) by (apply (get_name_of o k' r1 id n I' EN)).
    destruct (slot_live k' r1 n id s g1 I' SL) as (_ & _ & EA).
    assert (EP : d_id2pos id (rg_dict r1) = Ok (posn (rgo_step o) id)).
    { destruct (ri_live _ _ _ I' _ _ EN) as (j & Hj & ->). apply (id2pos_ok o N F k' r1 j I'). lia. }
    split; auto. split; [|split; [|split]].
    - exists s, g1. split; auto. split; auto. exists (posn (rgo_step o) id). unfold rg_get.
      destruct (Z.eqb_spec id bad_id) as [->|].
      + exfalso. destruct (ri_live _ _ _ I' _ _ EN) as (j & Hj & EJ). pose proof (id_range o N F j ltac:(lia)). pose proof (step_pos o N F). lia.
      + rewrite EP. cbn [bind]. now rewrite EA.
    - destruct (m_find name_eqb n (d_dict (rg_dict r))) as [i|] eqn:E2.
      + right. rewrite (SAME ltac:(discriminate)) in GN. split; auto. apply SAME. discriminate.
      + left. unfold rg_get_name, d_get_name. now rewrite (FR eq_refl).
    - intros id' H. unfold rg_get_name, d_get_name in *. rewrite IDX. destruct (Z.eqb_spec id' id) as [->|]; auto.
      destruct (m_find name_eqb n (d_dict (rg_dict r))) as [i|] eqn:E2.
      + rewrite (SAME ltac:(discriminate)) in EN. rewrite EN in E2. injection E2 as <-. apply (ri_inv _ _ _ I) in EN. now rewrite EN.
      + now rewrite (FR eq_refl) in H.
    - intros e' now'. unfold rg_create. destruct n as [|a n]; [congruence|]. unfold d_create_id. rewrite EN.
      rewrite EP. cbn [bind]. cbv zeta. rewrite EA. now destruct r1.
  Qed.
  Lemma names_inj N r id id' : fits o N -> reachable ne o N r -> rg_get_name id r <> [] -> rg_get_name id r = rg_get_name id' r -> id = id'.
  Proof.
    intros F R H E. destruct (reach_inv N r F R) as (k & Hk & I). unfold rg_get_name, d_get_name in *.
    destruct (m_find Z.eqb id (d_index (rg_dict r))) as [n|] eqn:E1; [|congruence].
    destruct (m_find Z.eqb id' (d_index (rg_dict r))) as [n'|] eqn:E2; [|congruence]. subst n'.
    apply (ri_inv _ _ _ I) in E1, E2. congruence.
  Qed.
  Lemma reach_app N r ops outs r' : reachable ne o N r -> rg_run ne r ops = Ok (outs, r') -> reachable ne o (N + length ops) r'.
  Proof.
    intros (o1 & u1 & L & E) E'. exists (o1 ++ ops). exists (u1 ++ outs). split; [rewrite app_length; lia|].
    clear L. revert u1 E. generalize (rg_new o). induction o1 as [|op o1 IH]; intros r0 u1 E; simpl in *.
    - injection E as <- <-. auto.
    - destruct (rg_do ne op r0) as [[x r1]| |]; cbn [bind] in *; try discriminate.
      destruct (rg_run ne r1 o1) as [[xs r2]| |] eqn:E1; cbn [bind] in *; try discriminate. injection E as <- <-.
      rewrite (IH r1 xs E1). reflexivity.
  Qed.
  Lemma name_stable N r id n ops outs r' : fits o (N + length ops) -> reachable ne o N r -> n <> [] -> rg_get_name id r = n ->
    rg_run ne r ops = Ok (outs, r') -> ~ In (RgDel n) ops ->
    rg_get_name id r' = n /\ forall e now, rg_create ne e n now r' = Ok (id, r').
  Proof.
    intros F R HN GN E ND. destruct (reach_inv N r (fits_le (N + length ops) N ltac:(lia) F) R) as (k & Hk & I).
    destruct (run_inv ops k r outs r' (fits_le (N + length ops) (k + length ops) ltac:(lia) F) I E) as (k' & Hk' & I' & _ & D & _).
    unfold rg_get_name, d_get_name in GN. destruct (m_find Z.eqb id (d_index (rg_dict r))) as [n'|] eqn:E1; [|congruence]. subst n'.
    apply (ri_inv _ _ _ I) in E1. pose proof (D _ _ E1 ND) as EN. split; [apply (get_name_of o k' r' id n I' EN)|].
    intros e now. unfold rg_create. destruct n as [|a n]; [congruence|]. unfold d_create_id. rewrite EN.
    destruct (ri_live _ _ _ I' _ _ EN) as (j & Hj & ->). rewrite (id2pos_ok o _ F k' r' j I') by lia. cbn [bind]. cbv zeta.
    destruct (ri_slot _ _ _ I' _ _ EN) as (s & g & EA). rewrite EA. now destruct r'.
  Qed.

  (** ** C29 *)
  Lemma issued_ids N r ops outs : fits o N -> (length ops <= N)%nat -> rg_run ne (rg_new o) ops = Ok (outs, r) ->
    forall id, In (RId id) outs -> id <> bad_id -> rgo_init o < id < bad_id /\ id mod rgo_step o = rgo_init o mod rgo_step o.
  Proof.
    intros F L E id H NB. assert (F' := fits_le N (length ops) L F).
    destruct (run_inv ops 0 (rg_new o) outs r F' (RInv_new o) E) as (k & Hk & I & _ & _ & O).
    destruct (O id H) as [|(j & Hj & ->)]; [congruence|].
    pose proof (id_range o N F j ltac:(lia)). pose proof (step_pos o N F). pose proof (id_pos o N F j ltac:(lia)).
    split; [lia|]. unfold nth_id. rewrite Z.mul_comm. apply Z_mod_plus_full.
  Qed.

  (** ** C30 *)
  Lemma call_own N r id n op out r1 : fits o N -> reachable ne o N r -> n <> [] -> rg_get_name id r = n -> rg_call ne id op r = Ok (out, r1) ->
    exists s g g', registered r n id s g /\ g_call ne op g = Ok (out, g') /\ registered r1 n id s g' /\
      forall n' id' s' g1, n' <> n -> (registered r1 n' id' s' g1 <-> registered r n' id' s' g1).
  Proof.
    intros F R HN GN E. destruct (reach_inv N r F R) as (k & Hk & I).
    destruct (call_sim ne o N F k r id op out r1 I Hk E) as (I' & _ & _ & SL); [left; congruence|].
    pose proof (SL n HN) as SLn. rewrite GN, name_eqb_refl in SLn. destruct SLn as (_ & s & g & g' & S1 & S2 & S3).
    exists s, g, g'. split; [apply (registered_slot N F k r); auto|]. split; auto. split; [apply (registered_slot N F k r1); auto|].
    intros n' id' s' g1 NE. rewrite (registered_slot N F k r1), (registered_slot N F k r) by auto.
    split; intros [H1 H2]; (split; [exact H1|]); specialize (SL n' H1); rewrite GN in SL; destruct (name_eqb_spec n n'); congruence.
  Qed.
  Lemma call_refused N r id : fits o N -> reachable ne o N r -> rgo_step o = 1 -> 0 <= id < two64 -> rg_get_name id r = [] -> rg_get id r = Ok None.
  Proof.
    intros F R S1 B GN. destruct (reach_inv N r F R) as (k & Hk & I). unfold rg_get. destruct (id =? bad_id); auto.
    unfold d_id2pos. rewrite (ri_step _ _ _ I), S1. simpl (1 =? 0). cbn [bind].
    replace (id + 1 - 1) with id by lia. rewrite Z.div_1_r. unfold u64. rewrite Z.mod_small by auto.
    destruct (nth_error (rg_arr r) (Z.to_nat id)) as [[[s g]|]|] eqn:E; auto.
    destruct (ri_arr _ _ _ I _ _ _ E) as (_ & n & i & EN & P). rewrite S1 in P. unfold posn in P.
    replace (i + 1 - 1) with i in P by lia. rewrite Z.div_1_r in P.
    destruct (ri_live _ _ _ I _ _ EN) as (j & Hj & ->). pose proof (id_range o N F j ltac:(lia)).
    assert (id = nth_id o j) by lia. subst id. pose proof (get_name_of o k r _ _ I EN) as G. rewrite GN in G. subst n.
    rewrite (ri_noname _ _ _ I) in EN. discriminate.
  Qed.

  (** ** C31 *)
  Lemma popped_taken f c g d g' : popped_one ne f c g = Ok (d, g') <-> taken ne f c g d g'.
  Proof.
    unfold popped_one, taken. split.
    - destruct (g_call ne (GoSeparate 0 false f c) g) as [[o1 g1]| |]; cbn [bind]; try discriminate.
      destruct (g_call ne (if f then GoForcePop else GoPop) g1) as [[o2 g2]| |] eqn:E; cbn [bind]; try discriminate.
      intros H. injection H as <- <-. exists o1, g1, o2. auto.
    - intros (o1 & g1 & o2 & E1 & E2 & <-). rewrite E1. cbn [bind]. now rewrite E2.
  Qed.
  Lemma m_find_In {V} n (v : V) l : NoDup (map fst l) -> (m_find name_eqb n l = Some v <-> In (n, v) l).
  Proof.
    induction l as [|[m w] l IH]; simpl; intros ND; [split; [discriminate|tauto]|]. inversion ND as [|? ? NI ND']; subst.
    destruct (name_eqb_spec n m) as [->|NE].
    - split; [intros H; injection H as <-; auto|]. intros [H|H]; [congruence|]. exfalso. apply NI. apply in_map_iff. exists (m, v). auto.
    - rewrite (IH ND'). split; auto. intros [H|H]; auto. congruence.
  Qed.
  Lemma pop_all_exact N f clk r l r1 : fits o N -> reachable ne o N r -> rg_pop_all ne f clk r = Ok (l, r1) ->
    NoDup (map fst l) /\
    (forall n d, In (n, d) l <-> exists id s g g', registered r n id s g /\ taken ne f (clk n) g (Some d) g') /\
    (forall n id s g, registered r n id s g -> exists d g', taken ne f (clk n) g d g' /\ registered r1 n id s g') /\
    (forall n id s g', registered r1 n id s g' -> exists g, registered r n id s g).
  Proof.
    intros F R E. destruct (reach_inv N r F R) as (k & Hk & I).
    destruct (pop_all_spec ne o N F f clk k r l r1 I Hk E) as (I' & _ & _ & _ & ND & SL). split; auto. split; [|split].
    - intros n d. rewrite <- (m_find_In n d l ND). specialize (SL n). destruct (slot o r n) as [[[id s] g]|] eqn:ES.
      + destruct SL as (g' & S1 & S2). assert (HN : n <> []).
        { intros ->. unfold slot in ES. now rewrite (ri_noname _ _ _ I) in ES. }
        split.
        * intros H. rewrite H in S2. exists id, s, g, g'. split; [apply (registered_slot N F k r); auto|]. now apply popped_taken.
        * intros (id' & s' & g1 & g2 & RG & T). apply (registered_slot N F k r) in RG; auto. destruct RG as [_ RG]. rewrite ES in RG. injection RG as <- <- <-.
          apply popped_taken in T. congruence.
      + destruct SL as [_ SL]. split; [congruence|]. intros (id' & s' & g1 & g2 & RG & T). apply (registered_slot N F k r) in RG; auto. destruct RG. congruence.
    - intros n id s g RG. apply (registered_slot N F k r) in RG; auto. destruct RG as [HN RG]. specialize (SL n). rewrite RG in SL.
      destruct SL as (g' & S1 & S2). apply popped_taken in S2. eexists _, g'. split; [exact S2|]. apply (registered_slot N F k r1); auto.
    - intros n id s g' RG. apply (registered_slot N F k r1) in RG; auto. destruct RG as [HN RG]. specialize (SL n).
      destruct (slot o r n) as [[[id0 s0] g0]|] eqn:ES; [|destruct SL; congruence]. destruct SL as (g2 & S1 & S2). rewrite RG in S1. injection S1 as <- <- <-.
      exists g0. apply (registered_slot N F k r); auto.
  Qed.

  (** ** C32 *)
  Lemma del_total N r n : fits o N -> reachable ne o N r -> exists b r1, rg_del n r = Ok (b, r1).
  Proof.
    intros F R. destruct (reach_inv N r F R) as (k & Hk & I). unfold rg_del, d_get_id.
    destruct (m_find name_eqb n (d_dict (rg_dict r))) as [id|] eqn:E; [|rewrite Z.eqb_refl; eauto].
    destruct (id =? bad_id); eauto.
    destruct (ri_live _ _ _ I _ _ E) as (j & Hj & ->). rewrite (id2pos_ok o N F k r j I) by lia. cbn [bind].
    destruct (ri_slot _ _ _ I _ _ E) as (s & g & EA). rewrite (proj2 (Nat.ltb_lt _ _) (nth_error_lt _ _ _ EA)).
    destruct (d_free_id _ _). eauto.
  Qed.
  Lemma find_obj_dead s r : ~ live_obj r s -> find_obj s (rg_arr r) = None.
  Proof.
    intros H. destruct (find_obj s (rg_arr r)) as [[p g]|] eqn:E; auto. apply find_obj_some in E. exfalso. apply H. exists p, g. auto.
  Qed.
  Lemma del_effect N r n b r1 : fits o N -> reachable ne o N r -> n <> [] -> rg_del n r = Ok (b, r1) ->
    (forall id s g, ~ registered r1 n id s g) /\
    (forall id, rg_get_name id r1 = if name_eqb (rg_get_name id r) n then [] else rg_get_name id r) /\
    (forall n' id' s' g1, n' <> n -> (registered r1 n' id' s' g1 <-> registered r n' id' s' g1)) /\
    rg_enabled r1 = rg_enabled r /\ rg_initializer r1 = rg_initializer r.
  Proof.
    intros F R HN E. destruct (reach_inv N r F R) as (k & Hk & I).
    destruct (del_sim o N F k r n b r1 I Hk E) as (_ & I' & [F1 F2] & SN & SO & MN & GN & _).
    split; [|split; [|split; [|split]]]; auto.
    - intros id s g RG. apply (registered_slot N F k r1) in RG; auto. destruct RG. congruence.
    - intros n' id' s' g1 NE. rewrite (registered_slot N F k r1), (registered_slot N F k r) by auto. now rewrite SO.
  Qed.
  Lemma del_pushers N r n id s g b r1 ops outs r2 : fits o (N + S (length ops)) -> reachable ne o N r -> registered r n id s g ->
    rg_del n r = Ok (b, r1) -> rg_run ne r1 ops = Ok (outs, r2) ->
    forall p x c1 c2, rp_obj p = s -> rg_call_pusher ne p x c1 c2 r2 = Ok ([], r2).
  Proof.
    intros F R RG E ER p x c1 c2 EPO. subst s. assert (F0 := fits_le (N + S (length ops)) N ltac:(lia) F).
    destruct (reach_inv N r F0 R) as (k & Hk & I). apply (registered_slot N F0 k r) in RG; auto. destruct RG as [HN SL].
    destruct (del_sim o N F0 k r n b r1 I Hk E) as (_ & I1 & _ & SN & SO & _ & _ & _ & NX).
    destruct (slot_live k r _ _ _ _ I SL) as (LV & EN & EA).
    assert (ND : ~ live_obj r1 (rp_obj p)).
    { intros H. destruct (live_slot k r1 (rp_obj p) I1 H) as (m & id' & g' & S1). destruct (list_eq_dec ascii_dec m n) as [->|NE]; [congruence|].
      rewrite SO in S1 by auto. destruct (slot_live k r _ _ _ _ I S1) as (_ & EN' & EA').
      pose proof (ri_uniq _ _ _ I _ _ _ _ _ EA EA') as P.
      destruct (ri_live _ _ _ I _ _ EN) as (j & _ & ->). destruct (ri_live _ _ _ I _ _ EN') as (j' & _ & ->).
      apply (posn_inj o N F0) in P. subst j'. apply (ri_inv _ _ _ I) in EN, EN'. congruence. }
    destruct (run_inv ops k r1 outs r2 (fits_le (N + S (length ops)) (k + length ops) ltac:(lia) F) I1 ER) as (k2 & _ & _ & [SU1 SU2] & _).
    destruct LV as (pp & gg & LV). destruct (ri_arr _ _ _ I _ _ _ LV) as (LT & _).
    unfold rg_call_pusher. rewrite find_obj_dead; auto. intros H. destruct (SU2 _ H) as [H1|H1]; [auto|]. lia.
  Qed.
  Lemma recreate N r n e now id r1 : fits o N -> reachable ne o N r -> n <> [] -> (forall i s g, ~ registered r n i s g) ->
    rg_create ne e n now r = Ok (id, r1) ->
    exists s g0 g, agg_new (rgo_agg o) (ce_clock e) (ce_rnd e) now = Ok g0 /\ registered r1 n id s g /\
      (forall m i g1, ~ registered r m i s g1) /\
      (rg_enabled r = false -> g = g_enable false g0) /\
      (rg_enabled r = true -> rg_initializer r = false \/ ce_init e = None -> g = g0) /\
      (rg_enabled r = true -> rg_initializer r = true -> forall rd, ce_init e = Some rd ->
         exists a, g_call ne (GoAdd (SmRed rd) (ce_c1 e) (ce_c2 e)) g0 = Ok (a, g)).
  Proof.
    intros F R HN NR E. destruct (reach_inv N r F R) as (k & Hk & I).
    assert (SN : slot o r n = None).
    { destruct (slot o r n) as [[[i s] g]|] eqn:ES; auto. exfalso. apply (NR i s g). apply (registered_slot N F k r); auto. }
    destruct (create_sim ne o N F k r e n now id r1 I Hk E) as [_ C2].
    destruct (C2 HN) as (k' & g1 & Hk' & I' & FL & EN & SO & CC & (s & SL) & _).
    unfold cell_create, cellof in CC. rewrite SN in CC. cbn [cl_agg cl_enabled cl_init] in CC.
    destruct (agg_new (rgo_agg o) (ce_clock e) (ce_rnd e) now) as [g0| |]; cbn [bind] in CC; try discriminate.
    exists s, g0, g1. split; auto.
    assert (RG1 : registered r1 n id s g1).
    { destruct (slot_live k' r1 _ _ _ _ I' SL) as (_ & _ & EA). split; auto. split; [apply (get_name_of o k' r1 id n I' EN)|].
      exists (posn (rgo_step o) id). unfold rg_get. destruct (ri_live _ _ _ I' _ _ EN) as (j & Hj & ->).
      pose proof (id_range o N F j ltac:(lia)). pose proof (step_pos o N F). destruct (Z.eqb_spec (nth_id o j) bad_id); [lia|].
      rewrite (id2pos_ok o N F k' r1 j I') by lia. cbn [bind]. now rewrite EA. }
    split; auto. split.
    { intros m i g2 RG. pose proof RG as RG'. apply (registered_slot N F k r) in RG; auto. destruct RG as [HM RG].
      assert (m <> n). { intros ->. congruence. }
      rewrite <- SO in RG by auto.
      destruct (slot_live k' r1 _ _ _ _ I' SL) as (_ & E1 & A1). destruct (slot_live k' r1 _ _ _ _ I' RG) as (_ & E2 & A2).
      pose proof (ri_uniq _ _ _ I' _ _ _ _ _ A1 A2) as P.
      destruct (ri_live _ _ _ I' _ _ E1) as (j & _ & ->). destruct (ri_live _ _ _ I' _ _ E2) as (j' & _ & ->).
      apply (posn_inj o N F) in P. subst j'. apply (ri_inv _ _ _ I') in E1, E2. congruence. }
    destruct (rg_enabled r); simpl negb in CC; cbv iota in CC.
    - split; [discriminate|]. split.
      + intros _ [H|H]; rewrite H in CC.
        * cbn [bind] in CC. congruence.
        * destruct (rg_initializer r); cbn [bind] in CC; congruence.
      + intros _ H rd Hrd. rewrite H, Hrd in CC. simpl g_call.
        destruct (g_add_red ne (ce_c1 e) (ce_c2 e) rd g0) as [[b g']| |]; cbn [bind] in *; try discriminate. injection CC as -> _. eauto.
    - cbn [bind] in CC. split; [congruence|]. split; discriminate.
  Qed.

  (** ** C33 *)
  Lemma cell_sim_run n : n <> [] -> forall ops k r outs r', fits o (k + length ops) -> RInv o k r -> all_clean ne r ops ->
    rg_run ne r ops = Ok (outs, r') ->
    cell_run ne (rgo_agg o) (cellof o r n) (map fst (project ne n r ops)) = Ok (map snd (project ne n r ops), cellof o r' n).
  Proof.
    intros HN. induction ops as [|op ops IH]; intros k r outs r' F I C E; cbn [rg_run project all_clean] in *.
    - injection E as <- <-. reflexivity.
    - destruct (rg_do ne op r) as [[o1 r1]| |] eqn:E1; cbn [bind] in E; try discriminate.
      destruct (rg_run ne r1 ops) as [[os r2]| |] eqn:E2; cbn [bind] in E; try discriminate. injection E as <- <-. simpl in F.
      destruct C as [C0 C]. destruct (do_sim ne o _ F k r op o1 r1 I ltac:(lia) E1 C0) as (k1 & L1 & I1 & S1).
      specialize (S1 n HN). specialize (IH k1 r1 os r2 (fits_le (k + S (length ops)) (k1 + length ops) ltac:(lia) F) I1 C E2).
      destruct (addressed n r op) as [c|]; cbn [app map].
      + cbn [fst snd cell_run]. rewrite S1. cbn [bind]. rewrite IH. reflexivity.
      + rewrite <- S1. exact IH.
  Qed.
  Lemma isolation n ops outs r : n <> [] -> fits o (length ops) -> all_clean ne (rg_new o) ops -> rg_run ne (rg_new o) ops = Ok (outs, r) ->
    exists c, cell_run ne (rgo_agg o) (mk_cell None true (rgo_initializer o)) (map fst (project ne n (rg_new o) ops))
              = Ok (map snd (project ne n (rg_new o) ops), c) /\
      (forall g, cl_agg c = Some g <-> exists id s, registered r n id s g) /\ cl_enabled c = rg_enabled r /\ cl_init c = rg_initializer r.
  Proof.
    intros HN F C E. exists (cellof o r n).
    destruct (run_inv ops 0 (rg_new o) outs r F (RInv_new o) E) as (k & Hk & I & _).
    split; [|split; [|split; reflexivity]].
    - apply (cell_sim_run n HN ops 0 (rg_new o) outs r F (RInv_new o) C E).
    - assert (Hk1 : (k <= length ops)%nat) by lia. intros g. unfold cellof. cbn [cl_agg]. destruct (slot o r n) as [[[id s] g1]|] eqn:ES.
      + split.
        * intros H. injection H as ->. exists id, s. apply (registered_slot (length ops) F k r); auto.
        * intros (i & s' & RG). apply (registered_slot (length ops) F k r) in RG; auto. destruct RG. congruence.
      + split; [discriminate|]. intros (i & s' & RG). apply (registered_slot (length ops) F k r) in RG; auto. destruct RG. congruence.
  Qed.
  Lemma clean_step1 : rgo_step o = 1 -> forall ops N r, fits o (N + length ops) -> reachable ne o N r -> Forall id_ok ops -> all_clean ne r ops.
  Proof.
    intros S1. induction ops as [|op ops IH]; intros N r F R B; cbn [all_clean]; auto. inversion B as [|? ? B1 B2]; subst. simpl in F. split.
    - destruct op; simpl; auto. destruct (list_eq_dec ascii_dec (rg_get_name id r) []); auto. right.
      apply (call_refused N r id (fits_le (N + S (length ops)) N ltac:(lia) F) R S1 B1 e).
    - destruct (rg_do ne op r) as [[x r1]| |] eqn:E; auto. apply (IH (N + 1)%nat); auto.
      + eapply fits_le; [|exact F]. lia.
      + change 1%nat with (length [op]). eapply reach_app; [exact R|]. simpl. rewrite E. reflexivity.
  Qed.
  Lemma clean_new ops : rgo_step o = 1 -> fits o (length ops) -> Forall id_ok ops -> all_clean ne (rg_new o) ops.
  Proof. intros S1 F B. apply (clean_step1 S1 ops 0); auto. exists [], []. auto. Qed.

  (** ** C34 *)
  Lemma flush_not_due c g d g' : not_due ne c g -> (taken ne true c g d g' <-> exists out, g_call ne GoForcePop g = Ok (out, g') /\ out_ptr out = d).
  Proof.
    intros (l & ND). assert (EQ : exists l', g_call ne (GoSeparate 0 false true c) g = Ok (l', g)).
    { cbn [g_call] in *. unfold g_separate, s_separate in *.
      destruct (get_ts (s_step (g_sep g)) (s_res (g_sep g)) c 0) as [t| |]; cbn [bind] in *; try discriminate.
      cbn [negb andb] in *. destruct (Z.ltb_spec t (s_next (g_sep g))) as [L|L].
      - cbn [bind] in ND.
        assert (EL : sep_loop ne (sep_fuel (s_step (g_sep g)) t (s_next (g_sep g))) (s_step (g_sep g)) t (s_next (g_sep g)) (s_red (g_sep g))
                     = Ok ([], s_red (g_sep g), s_next (g_sep g))).
        { set (fu := sep_fuel _ _ _). clearbody fu. destruct fu; cbn [sep_loop]; destruct (Z.leb_spec (s_next (g_sep g)) t); try lia; auto. }
        rewrite EL. cbn [bind]. rewrite app_nil_r.
        replace (mk_sep (s_red (g_sep g)) (s_step (g_sep g)) (s_next (g_sep g)) (s_res (g_sep g)) (s_list (g_sep g))) with (g_sep g) by (now destruct (g_sep g)).
        destruct (g_aggregate0_ ne (g_set_sep (g_sep g) g)) as [g1| |]; cbn [bind] in *; try discriminate. injection ND as _ ->. eauto.
      - exfalso. destruct (sep_loop _ _ _ _ _ _) as [[[recs r] nx]| |]; cbn [bind] in ND; try discriminate.
        destruct (g_aggregate0_ _ _); cbn [bind] in ND; try discriminate. }
    destruct EQ as (l' & EQ). unfold taken. split.
    - intros (o1 & g1 & o2 & E1 & E2 & E3). rewrite EQ in E1. injection E1 as <- <-. eauto.
    - intros (o2 & E2 & E3). exists l', g, o2. auto.
  Qed.
  Lemma flush_exact N clk w l w1 : fits o N -> reachable ne o N (w_reg w) -> w_handler w = true ->
    (forall n id s g, registered (w_reg w) n id s g -> not_due ne (clk n) g) ->
    w_pushout ne true clk w = Ok (l, w1) ->
    NoDup (map fst l) /\
    (forall n d, In (n, d) l <-> exists id s g g', registered (w_reg w) n id s g /\ g_force_pop ne g = Ok (Some d, g')).
  Proof.
    intros F R H ND E. unfold w_pushout in E. destruct (rg_pop_all ne true clk (w_reg w)) as [[l0 r1]| |] eqn:EP; cbn [bind] in E; try discriminate.
    rewrite H in E. injection E as <- <-. destruct (pop_all_exact N true clk (w_reg w) l0 r1 F R EP) as (A & B & _ & _). split; auto.
    intros n d. rewrite B. split.
    - intros (id & s & g & g' & RG & T). apply (flush_not_due _ _ _ _ (ND _ _ _ _ RG)) in T. destruct T as (out & T1 & T2).
      exists id, s, g, g'. split; auto. cbn [g_call] in T1. destruct (g_force_pop ne g) as [[a x]| |]; cbn [bind] in T1; try discriminate.
      injection T1 as <- <-. simpl in T2. congruence.
    - intros (id & s & g & g' & RG & T). exists id, s, g, g'. split; auto. apply (flush_not_due _ _ _ _ (ND _ _ _ _ RG)).
      exists (mk_sout None [] (Some d)). split; auto. cbn [g_call]. now rewrite T.
  Qed.
End Final.
