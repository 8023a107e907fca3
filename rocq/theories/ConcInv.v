(** Invariants of the shared registry. *)
From Coq Require Import ZArith List Bool Lia Arith Ascii.
From Verif Require Import Base ModelTypes ModelReducer SpecReducer ModelSeparator SpecSeparator ModelAggregator SpecAggregator
  ModelRegistry SpecRegistry RegProofs RegFinal AggFinal ModelConc SpecConc ConcProofs.
Import ListNotations.
Local Open Scope Z_scope.

Definition at_pos (r : registry) (pos s : nat) (g : agg) : Prop := nth_error (rg_arr r) pos = Some (Some (s, g)).
Record ROk (r : registry) : Prop := {
  ro_lt : forall pos s g, at_pos r pos s g -> (s < rg_next r)%nat;
  ro_uniq : forall p1 p2 s g1 g2, at_pos r p1 s g1 -> at_pos r p2 s g2 -> p1 = p2 }.
(** Objects do not move. *)
Record moves (r r' : registry) : Prop := {
  mv_step : d_step (rg_dict r') = d_step (rg_dict r);
  mv_next : (rg_next r <= rg_next r')%nat;
  mv_old : forall pos s g', at_pos r' pos s g' -> (exists g, at_pos r pos s g) \/ (rg_next r <= s)%nat }.
Definition keeps (r r' : registry) : Prop := forall pos s g, at_pos r pos s g -> exists g', at_pos r' pos s g'.

Lemma moves_refl r : moves r r.
Proof. constructor; auto. intros pos s g H. left. eauto. Qed.
Lemma keeps_refl r : keeps r r. Proof. intros pos s g H. eauto. Qed.

Section Inv.
  Variable ne : nat -> list Z -> list Z.

  Lemma agg_new_id o c rnd ts g : agg_new o c rnd ts = Ok g -> g_id g = true.
  Proof. unfold agg_new. destruct (sep_new _ _ _ _); cbn [bind]; try discriminate. intros E. now injection E as <-. Qed.

  (** What rg_create does to the objects. *)
  Lemma create_shape e n now r id r' : rg_create ne e n now r = Ok (id, r') ->
    d_step (rg_dict r') = d_step (rg_dict r) /\
    ((rg_arr r' = rg_arr r /\ rg_next r' = rg_next r) \/
     (exists pos g00 pre os g1, rg_arr r' = set_nth pos (Some (rg_next r, g1)) (resize (S pos) (rg_arr r)) /\ rg_next r' = S (rg_next r) /\
        (forall ob, nth_error (rg_arr r) pos <> Some (Some ob)) /\ agg_new (rg_opt r) (ce_clock e) (ce_rnd e) now = Ok g00 /\
        creation e pre /\ g_run ne g00 pre = Ok (os, g1))) /\ rg_opt r' = rg_opt r.
  Proof.
    intros E. destruct n as [|a n]; [injection E as <- <-; auto|]. unfold rg_create in E.
    destruct (d_create_id (ce_pick e) (a :: n) (rg_dict r)) as [id0 d] eqn:EC.
    assert (ED : d_step d = d_step (rg_dict r)).
    { unfold d_create_id in EC. destruct (m_find name_eqb (a :: n) (d_dict (rg_dict r))); [now injection EC as <- <-|].
      destruct (d_free (rg_dict r)); now injection EC as <- <-. }
    bind_in E pos. cbv zeta in E.
    set (K := g <- agg_new _ _ _ _ ;; _) in E.
    assert (HK : K = Ok (id, r') -> (forall ob, nth_error (rg_arr r) pos <> Some (Some ob)) ->
       d_step (rg_dict r') = d_step (rg_dict r) /\
    ((rg_arr r' = rg_arr r /\ rg_next r' = rg_next r) \/
     (exists pos g00 pre os g1, rg_arr r' = set_nth pos (Some (rg_next r, g1)) (resize (S pos) (rg_arr r)) /\ rg_next r' = S (rg_next r) /\
        (forall ob, nth_error (rg_arr r) pos <> Some (Some ob)) /\ agg_new (rg_opt r) (ce_clock e) (ce_rnd e) now = Ok g00 /\
        creation e pre /\ g_run ne g00 pre = Ok (os, g1))) /\ rg_opt r' = rg_opt r).
    { intros EK NO. unfold K in EK. destruct (agg_new _ _ _ _) as [g00| |] eqn:EA; cbn [bind] in EK; try discriminate.
      set (gi := if negb _ then _ else _) in EK.
      assert (GI : forall g1, gi = Ok g1 -> exists pre os, creation e pre /\ g_run ne g00 pre = Ok (os, g1)).
      { intros g1 G. unfold gi in G. destruct (negb (rg_enabled r)).
        - injection G as <-. exists [GoEnable false], [mk_sout None [] None]. split; [right; left; auto|reflexivity].
        - destruct (rg_initializer r); [|injection G as <-; exists [], []; split; [left; auto|reflexivity]].
          destruct (ce_init e) as [rd|] eqn:EI; [|injection G as <-; exists [], []; split; [left; auto|reflexivity]].
          bind_in G bg. destruct bg as [b g']. injection G as <-. exists [GoAdd (SmRed rd) (ce_c1 e) (ce_c2 e)], [mk_sout (Some b) [] None].
          split; [right; right; exists rd; auto|]. cbn [g_run g_call]. rewrite Ebg. reflexivity. }
      clearbody gi. destruct gi as [g1| |]; cbn [bind] in EK; try discriminate. destruct (GI g1 eq_refl) as (pre & os & C1 & C2).
      injection EK as <- <-. simpl. split; auto. split; auto. right. exists pos, g00, pre, os, g1. auto 10. }
    clearbody K. destruct (nth_error (rg_arr r) pos) as [[ob|]|] eqn:EN; try (apply HK; auto; congruence).
    injection E as <- <-. simpl. auto.
  Qed.
  Lemma create_moves e n now r id r' : rg_create ne e n now r = Ok (id, r') -> ROk r ->
    moves r r' /\ keeps r r' /\ ROk r'.
  Proof.
    intros E R. destruct (create_shape _ _ _ _ _ _ E) as (A & B & _). destruct B as [[B1 B2]|(pos & g00 & pre & os & g1 & B1 & B2 & B3 & B4 & B5 & B6)].
    - unfold at_pos in *. split; [constructor; [auto|lia|]|split].
      + unfold at_pos. rewrite B1. eauto.
      + intros p s g. unfold at_pos. rewrite B1. eauto.
      + destruct R as [R1 R2]. constructor; unfold at_pos in *; rewrite ?B1, ?B2; auto.
    - assert (AT : forall p s g, at_pos r' p s g <-> (p = pos /\ s = rg_next r /\ g = g1) \/ (p <> pos /\ at_pos r p s g)).
      { intros p s g. unfold at_pos. rewrite B1. destruct (Nat.eq_dec p pos) as [->|N].
        - rewrite set_nth_same by (pose proof (resize_length (S pos) (rg_arr r)); lia). split.
          + intros H. injection H as <- <-. auto.
          + intros [(_ & -> & ->)|[H _]]; [auto|congruence].
        - rewrite set_nth_other by auto. rewrite resize_some. intuition. }
      destruct R as [R1 R2]. split; [constructor; [auto|lia|]|split].
      + intros p s g H. apply AT in H. destruct H as [(-> & -> & ->)|[_ H]]; [right; lia|left; eauto].
      + intros p s g H. exists g. apply AT. right. split; auto. intros ->. eapply B3. exact H.
      + constructor.
        * intros p s g H. apply AT in H. rewrite B2. destruct H as [(-> & -> & ->)|[_ H]]; [lia|]. apply R1 in H. lia.
        * intros p1 p2 s x1 x2 H1 H2. apply AT in H1, H2. destruct H1 as [(-> & -> & ->)|[_ H1]], H2 as [(-> & ? & ?)|[_ H2]]; auto.
          -- apply R1 in H2. lia.
          -- subst. apply R1 in H1. lia.
          -- eauto.
  Qed.
  Lemma creation_clear e ops : creation e ops -> Forall gnot_clear ops.
  Proof. intros [->|[->|(rd & _ & ->)]]; repeat constructor. Qed.

  Lemma set_shape r pos s g0 g1 : ROk r -> at_pos r pos s g0 ->
    (forall p x g, at_pos (rg_set pos (Some (s, g1)) r) p x g <-> (p = pos /\ x = s /\ g = g1) \/ (p <> pos /\ at_pos r p x g)) /\
    moves r (rg_set pos (Some (s, g1)) r) /\ keeps r (rg_set pos (Some (s, g1)) r) /\ ROk (rg_set pos (Some (s, g1)) r).
  Proof.
    intros R H. assert (AT : forall p x g, at_pos (rg_set pos (Some (s, g1)) r) p x g <-> (p = pos /\ x = s /\ g = g1) \/ (p <> pos /\ at_pos r p x g)).
    { intros p x g. unfold at_pos, rg_set. cbn [rg_arr]. destruct (Nat.eq_dec p pos) as [->|N].
      - rewrite set_nth_same by (now apply nth_error_lt in H). split.
        + intros E. injection E as <- <-. auto.
        + intros [(_ & -> & ->)|[E _]]; [auto|congruence].
      - rewrite set_nth_other by auto. intuition. }
    split; auto. destruct R as [R1 R2]. split; [constructor; simpl; auto|split].
    - intros p x g' E. apply AT in E. destruct E as [(-> & -> & ->)|[_ E]]; eauto.
    - intros p x g E. destruct (Nat.eq_dec p pos) as [->|N]; [|exists g; apply AT; auto].
      unfold at_pos in *. rewrite H in E. injection E as <- <-. exists g1. apply AT. auto.
    - constructor.
      + intros p x g E. apply AT in E. simpl. destruct E as [(-> & -> & ->)|[_ E]]; eauto.
      + intros p1 p2 x x1 x2 H1 H2. apply AT in H1, H2. destruct H1 as [(-> & -> & ->)|[N1 H1]], H2 as [(-> & ? & ?)|[N2 H2]]; auto.
        * contradict N2. eauto.
        * subst. contradict N1. eauto.
        * eauto.
  Qed.

  Lemma del_shape n r b r' p : rg_del n r = Ok (b, r') -> rg_get (d_get_id n (rg_dict r)) r = Ok p ->
    d_step (rg_dict r') = d_step (rg_dict r) /\ rg_next r' = rg_next r /\ rg_opt r' = rg_opt r /\
    (forall pos s g, at_pos r' pos s g <-> at_pos r pos s g /\ p <> Some (pos, (s, g))).
  Proof.
    unfold rg_del, rg_get. intros E G. cbv zeta in E. destruct (d_get_id n (rg_dict r) =? bad_id).
    - injection E as <- <-. injection G as <-. split; auto. split; auto. split; auto. intros. intuition. discriminate.
    - bind_in E pos. cbn [bind] in G. destruct (pos <? length (rg_arr r))%nat eqn:EL; [|discriminate].
      apply Nat.ltb_lt in EL. unfold d_free_id in E. 
      assert (HA : forall d, (let '(b, d) := d in Ok (b, mk_registry (rg_opt r) (set_nth pos None (rg_arr r)) d (rg_enabled r) (rg_initializer r) (rg_next r))) = Ok (b, r') ->
        d_step (snd d) = d_step (rg_dict r) -> 
        d_step (rg_dict r') = d_step (rg_dict r) /\ rg_next r' = rg_next r /\ rg_opt r' = rg_opt r /\ rg_arr r' = set_nth pos None (rg_arr r)).
      { intros [b0 d0] H HS. injection H as <- <-. simpl. auto. }
      destruct (HA _ E) as (A1 & A2 & A3 & A4).
      { destruct (m_find Z.eqb _ _); reflexivity. }
      split; auto. split; auto. split; auto. intros q s g. unfold at_pos. rewrite A4. destruct (Nat.eq_dec q pos) as [->|N].
      + rewrite set_nth_same by auto. destruct (nth_error (rg_arr r) pos) as [[ob|]|]; injection G as <-; (split; [discriminate|]); intros [H1 H2]; try discriminate.
        exfalso. apply H2. injection H1 as ->. reflexivity.
      + rewrite set_nth_other by auto. split; [intros H; split; auto|tauto].
        destruct (nth_error (rg_arr r) pos) as [[ob|]|]; injection G as <-; congruence.
  Qed.

  (** * The invariant *)
  Definition alive (c : conc) (s : nat) : Prop := exists g, exists_obj c s g.
  Definition at_id (r : registry) (id : Z) (s : nat) : Prop :=
    id <> bad_id /\ exists pos0, d_id2pos id (rg_dict r) = Ok pos0 /\ forall pos g, at_pos r pos s g -> pos = pos0.
  Definition PcOk (c : conc) (p : pc) : Prop :=
    match p with
    | PGot id s g => alive c s /\ (s < rg_next (k_reg c))%nat /\ at_id (k_reg c) id s
    | PLocked p _ _ _ _ => alive c (rp_obj p) /\ pu_id (rp_pu p) = true
    | PDeliver s _ _ | PLeave _ s _ => alive c s
    | PPopped _ _ _ _ id s => (exists pos g, at_pos (k_reg c) pos s g) /\ at_id (k_reg c) id s
    | _ => True
    end.
  Definition DeadOk (r : registry) (dead : list obj) : Prop :=
    forall s g, m_find Nat.eqb s dead = Some g -> (s < rg_next r)%nat /\ forall pos g', ~ at_pos r pos s g'.
  Record KInv (c : conc) : Prop := {
    ki_ok : ROk (k_reg c);
    ki_dead : DeadOk (k_reg c) (k_dead c);
    ki_thr : forall t p, nth_error (k_thr c) t = Some p -> PcOk c p }.

  Lemma KInv_new o n : KInv (k_new o n).
  Proof.
    constructor; simpl.
    - constructor; unfold at_pos; simpl; [intros [|]|intros [|]]; discriminate.
    - intros s g H. discriminate.
    - intros t p H. apply nth_error_In, repeat_spec in H. subst. exact I.
  Qed.

  Lemma find_at r s pos g : ROk r -> at_pos r pos s g -> find_obj s (rg_arr r) = Some (pos, g).
  Proof.
    intros R H. destruct (find_obj s (rg_arr r)) as [[p x]|] eqn:E.
    - apply find_obj_some in E. assert (p = pos) by (eapply ro_uniq; eauto). subst. unfold at_pos in H. congruence.
    - exfalso. eapply find_obj_none; eauto.
  Qed.
  Lemma get_at r id s pos g : at_id r id s -> at_pos r pos s g -> rg_get id r = Ok (Some (pos, (s, g))).
  Proof.
    intros (N & p0 & E & U) H. unfold rg_get. apply Z.eqb_neq in N. rewrite N, E. cbn [bind]. assert (pos = p0) by (eapply U; eauto). subst. now rewrite H.
  Qed.
  Lemma get_at_id r id s pos g : ROk r -> rg_get id r = Ok (Some (pos, (s, g))) -> at_pos r pos s g /\ at_id r id s.
  Proof.
    intros R H. pose proof (get_in _ _ _ _ _ H) as A. split; auto. unfold rg_get in H. destruct (Z.eqb_spec id bad_id); [discriminate|].
    split; auto. bind_in H p0. exists p0. split; auto. intros q x Q.
    destruct (nth_error (rg_arr r) p0) as [[ob|]|]; try discriminate. injection H as -> ->. eapply ro_uniq; eauto.
  Qed.

  (** One call on an object. *)
  Lemma call_shape s g c o reg c' : k_call ne s g c = Ok (o, reg, c') ->
    exists g0 g1, exists_obj c s g0 /\ g_call ne g g0 = Ok (o, g1) /\
      ((reg = true /\ exists pos, at_pos (k_reg c) pos s g0 /\ k_reg c' = rg_set pos (Some (s, g1)) (k_reg c) /\ k_dead c' = k_dead c) \/
       (reg = false /\ (forall pos g, ~ at_pos (k_reg c) pos s g) /\ k_reg c' = k_reg c /\ m_find Nat.eqb s (k_dead c) = Some g0 /\
          k_dead c' = (s, g1) :: m_erase Nat.eqb s (k_dead c))).
  Proof.
    unfold k_call. intros E. destruct (find_obj s _) as [[pos g0]|] eqn:EF.
    - bind_in E og. destruct og as [o1 g1]. cbn [bind] in E. injection E as <- <- <-. pose proof (find_obj_some _ _ _ _ EF) as A.
      exists g0, g1. split; [left; eauto|]. split; auto. left. split; auto. exists pos. auto.
    - destruct (m_find Nat.eqb s _) as [g0|] eqn:EM; try discriminate. bind_in E og. destruct og as [o1 g1]. injection E as <- <- <-.
      exists g0, g1. split; [right; auto|]. split; auto. right. split; auto. split; [exact (find_obj_none _ _ EF)|auto].
  Qed.
  (** What a step does to the shared state. *)
  Definition shared (c : conc) (r' : registry) (dead' : list obj) : Prop :=
    moves (k_reg c) r' /\ ROk r' /\ DeadOk r' dead' /\
    (forall s, alive c s -> alive (mk_conc r' dead' (k_thr c)) s) /\
    (keeps (k_reg c) r' \/ can_write c = true).

  Lemma shared_same c : KInv c -> shared c (k_reg c) (k_dead c).
  Proof.
    intros K. split; [apply moves_refl|]. split; [apply K|]. split; [apply K|]. split; [|left; apply keeps_refl].
    intros s (g & H). exists g. exact H.
  Qed.
  Lemma shared_keep c r' : KInv c -> moves (k_reg c) r' -> keeps (k_reg c) r' -> ROk r' -> shared c r' (k_dead c).
  Proof.
    intros K M KE R. split; auto. split; auto. split; [|split; auto].
    - intros s g H. pose proof (ki_dead _ K _ _ H) as (A & C). pose proof (mv_next _ _ M). split; [lia|].
      intros pos g' A'. destruct (mv_old _ _ M _ _ _ A') as [[gx HX]|HX]; [eapply C; eauto|lia].
    - intros s (g & [[pos H]|H]); [|exists g; right; auto]. destruct (KE _ _ _ H) as (g' & H'). exists g'. left. exists pos. exact H'.
  Qed.
  Lemma nat_find_erase {V} a b (m : list (nat * V)) : m_find Nat.eqb a (m_erase Nat.eqb b m) = if (b =? a)%nat then None else m_find Nat.eqb a m.
  Proof. apply m_find_erase. intros. apply Nat.eqb_spec. Qed.
  Lemma shared_call c s g o reg c' : KInv c -> k_call ne s g c = Ok (o, reg, c') -> shared c (k_reg c') (k_dead c').
  Proof.
    intros K E. destruct (call_shape _ _ _ _ _ _ E) as (g0 & g1 & EX & EC & D).
    destruct D as [(-> & pos & A & E1 & E2)|(-> & NA & E1 & EM & E2)]; rewrite E1, E2.
    - destruct (set_shape _ _ _ _ g1 (ki_ok _ K) A) as (_ & M & KE & R). apply shared_keep; auto.
    - split; [apply moves_refl|]. split; [apply K|]. split; [|split; [|left; apply keeps_refl]].
      + intros x gx H. rewrite m_find_cons in H. destruct (Nat.eqb_spec x s) as [->|N].
        * injection H as <-. split; [apply (ki_dead _ K _ _ EM)|]. auto.
        * rewrite nat_find_erase in H. destruct (Nat.eqb_spec s x); [congruence|]. apply (ki_dead _ K _ _ H).
      + intros x (gx & [H|H]); [exists gx; left; exact H|]. destruct (Nat.eqb_spec x s) as [->|N].
        * exists g1. right. simpl. now rewrite Nat.eqb_refl.
        * exists gx. right. simpl. apply Nat.eqb_neq in N as N'. rewrite N', nat_find_erase. destruct (Nat.eqb_spec s x); congruence.
  Qed.
  Lemma at_id_moves r r' id s : moves r r' -> (s < rg_next r)%nat -> at_id r id s -> at_id r' id s.
  Proof.
    intros M L (N & p0 & E & U). split; auto. exists p0. split.
    - unfold d_id2pos in *. rewrite (mv_step _ _ M). exact E.
    - intros pos g H. destruct (mv_old _ _ M _ _ _ H) as [[g0 H0]|H0]; [eauto|lia].
  Qed.

  (** The pcs of the other threads stay good. *)
  Lemma pc_frame c r' dead' thr' p : shared c r' dead' -> PcOk c p -> ROk (k_reg c) ->
    (can_write c = true -> reading p = false) -> PcOk (mk_conc r' dead' thr') p.
  Proof.
    intros (M & R & D & AL & KE) P R0 CW. destruct p; simpl in *; auto.
    - destruct P as (P1 & P2 & P3). split; [destruct (AL _ P1) as (g & H); exists g; exact H|].
      pose proof (mv_next _ _ M). split; [simpl; lia|]. eapply at_id_moves; eauto.
    - destruct P as (P1 & P2). split; auto. destruct (AL _ P1) as (g & H). exists g. exact H.
    - destruct (AL _ P) as (g & H). exists g. exact H.
    - destruct (AL _ P) as (g & H). exists g. exact H.
    - destruct P as ((pos & g & A) & B). destruct KE as [KE|KE]; [|specialize (CW KE); discriminate].
      split; [destruct (KE _ _ _ A) as (g' & A'); eauto|]. eapply at_id_moves; eauto. eapply ro_lt; eauto.
  Qed.
  Lemma cw_reading c t p : can_write c = true -> nth_error (k_thr c) t = Some p -> reading p = false /\ writing p = false.
  Proof.
    unfold can_write. intros H E. apply negb_true_iff in H. apply nth_error_In in E.
    assert (G : forall q, In q (k_thr c) -> (reading q || writing q) = false).
    { intros q Q. destruct (reading q || writing q) eqn:X; auto. assert (existsb (fun p => reading p || writing p) (k_thr c) = true) by (apply existsb_exists; eauto). congruence. }
    apply G in E. now apply orb_false_iff in E.
  Qed.

  Lemma pop_clear (f : bool) : gnot_clear (if f then GoForcePop else GoPop).
  Proof. destruct f; exact I. Qed.

  Lemma call_none id g r : rg_get id r = Ok None -> rg_do ne (RgCall id g) r = Ok (RCall (no_out g), r).
  Proof. intros H. cbn [rg_do]. unfold rg_call. rewrite H. reflexivity. Qed.

  Lemma step_shared c t k p ev r' dead' p' : KInv c -> nth_error (k_thr c) t = Some p ->
    Kstep ne t c k p ev r' dead' p' -> shared c r' dead' /\ PcOk (mk_conc r' dead' (k_thr c)) p'.
  Proof.
    intros K ET S. pose proof (ki_thr _ K _ _ ET) as PO.
    assert (SAME : shared c (k_reg c) (k_dead c)) by (apply shared_same; auto).
    assert (CR : forall e n now id r1, rg_create ne e n now (k_reg c) = Ok (id, r1) -> shared c r1 (k_dead c)).
    { intros. destruct (create_moves _ _ _ _ _ _ H (ki_ok _ K)) as (M & KE & R). apply shared_keep; auto. }
    destruct S.
    - (* stay *) split; auto.
    - (* one *) split; [|exact I]. destruct op; try contradiction.
      + cbn [rg_do] in H2. bind_in H2 idr. destruct idr as [id r1]. injection H2 as <- <-. eauto.
      + rewrite (call_none _ _ _ H1) in H2. injection H2 as <- <-. auto.
      + cbn [rg_do] in H2. injection H2 as <- <-. destruct (ki_ok _ K) as [R1 R2]. apply shared_keep; auto.
        * constructor; simpl; auto. intros. left. exists g'. exact H2.
        * intros pos s g A. exists g. exact A.
        * constructor; simpl; auto.
      + cbn [rg_do] in H2. injection H2 as <- <-. auto.
      + cbn [rg_do] in H2. bind_in H2 q. injection H2 as <- <-. auto.
    - (* del *) split; [|exact I]. cbn [rg_do] in H2. bind_in H2 br. destruct br as [b r1]. injection H2 as <- <-.
      destruct (del_shape _ _ _ _ _ Ebr H1) as (D1 & D2 & D3 & D4). destruct (ki_ok _ K) as [R1 R2].
      split; [constructor; [auto|lia|]|split; [|split; [|split; [|auto]]]].
      + intros pos s g A. apply D4 in A. left. exists g. tauto.
      + constructor.
        * intros pos s g A. apply D4 in A. rewrite D2. eapply R1; apply A.
        * intros p1 p2 s g1 g2 A B. apply D4 in A, B. eapply R2; [apply A|apply B].
      + intros s g M. destruct p as [[pos [s0 g0]]|].
        * cbn [m_find] in M. destruct (Nat.eqb_spec s s0) as [->|N].
          -- injection M as <-. apply get_in in H1. fold (at_pos (k_reg c) pos s0 g0) in H1. rewrite D2. split; [eapply R1; eauto|].
             intros q g' A. apply D4 in A. destruct A as (A & NA). apply NA.
             assert (pos = q) by (eapply R2; eauto). subst. unfold at_pos in *. rewrite A in H1. injection H1 as ->. auto.
          -- pose proof (ki_dead _ K _ _ M) as (B1 & B3). rewrite D2. split; auto. intros q g' A. apply D4 in A. eapply B3. apply A.
        * pose proof (ki_dead _ K _ _ M) as (B1 & B3). rewrite D2. split; auto. intros q g' A. apply D4 in A. eapply B3. apply A.
      + intros s (g & [[pos A]|A]).
        * destruct p as [[pos0 [s0 g0]]|].
          -- destruct (Nat.eqb_spec s s0) as [->|N]; [exists g0; right; simpl; now rewrite Nat.eqb_refl|].
             exists g. left. exists pos. apply D4. split; auto. congruence.
          -- exists g. left. exists pos. apply D4. split; auto. congruence.
        * destruct p as [[pos0 [s0 g0]]|]; [|exists g; right; auto].
          destruct (Nat.eqb_spec s s0) as [->|N]; [exists g0; right; simpl; now rewrite Nat.eqb_refl|].
          exists g. right. simpl. destruct (Nat.eqb_spec s s0); congruence.
    - (* get *) split; auto. subst k. destruct (get_at_id _ _ _ _ _ (ki_ok _ K) H0) as (A & B). simpl.
      split; [exists g0; left; eauto|]. split; [eapply ro_lt; [apply K|eauto]|]. auto.
    - split; [eauto|exact I].
    - split; [eauto|exact I].
    - split; [auto|exact I].
    - split; auto. simpl. split; [exists g; exact H0|]. auto.
    - split; [auto|exact I].
    - split; [|exact I]. destruct (ki_ok _ K) as [R1 R2]. apply shared_keep; auto.
      + constructor; simpl; auto. intros. left. exists g'. auto.
      + intros pos s g A. exists g. exact A.
      + constructor; simpl; auto.
    - (* call *) pose proof (shared_call _ _ _ _ _ _ K H) as SH. split; auto. apply SH. apply PO.
    - split; [auto|exact I].
    - (* get2 *) split; auto. destruct (get_at_id _ _ _ _ _ (ki_ok _ K) H) as (A & B). simpl.
      split; [exists g0; left; eauto|]. split; [eapply ro_lt; [apply K|eauto]|]. auto.
    - split; auto.
    - split; [auto|exact I].
    - pose proof (shared_call _ _ _ _ _ _ K H) as SH. split; auto. apply SH. apply PO.
    - pose proof (shared_call _ _ _ _ _ _ K H) as SH. split; auto. apply SH. apply PO.
    - pose proof (shared_call _ _ _ _ _ _ K H) as SH. split; auto. apply SH. apply PO.
    - split; [auto|exact PO].
    - split; [auto|exact I].
    - split; [auto|exact I].
    - (* sep *) pose proof (shared_call _ _ _ _ _ _ K H0) as SH. split; auto.
      destruct (get_at_id _ _ _ _ _ (ki_ok _ K) H) as (A & B).
      destruct (call_shape _ _ _ _ _ _ H0) as (x0 & x1 & EX & EC & D). destruct D as [(-> & q & A1 & E1 & E2)|(-> & NA & _)]; [|exfalso; eapply NA; eauto].
      simpl.
      destruct (set_shape _ _ _ _ x1 (ki_ok _ K) A1) as (AT & M & KE & R). split.
      + exists q, x1. rewrite E1. apply AT. auto.
      + rewrite E1. eapply at_id_moves; eauto. eapply ro_lt; [apply K|eauto].
    - split; [|exact I]. eapply shared_call; eauto.
    - split; [auto|exact I].
    - split; [auto|exact I].
    - split; [|exact I]. eapply shared_call; eauto.
  Qed.

  Lemma step_KInv c t k p ev p' c' : KInv c -> nth_error (k_thr c) t = Some p ->
    Kstep ne t c k p ev (k_reg c') (k_dead c') p' -> k_thr c' = set_nth t p' (k_thr c) -> KInv c'.
  Proof.
    intros K ET S TH. destruct (step_shared _ _ _ _ _ _ _ _ K ET S) as (SH & PO). constructor.
    - apply SH.
    - apply SH.
    - intros t' q Q. rewrite TH in Q. destruct (Nat.eq_dec t t') as [<-|N].
      + rewrite set_nth_same in Q by (now apply nth_error_lt in ET). injection Q as <-. destruct p'; exact PO.
      + rewrite set_nth_other in Q by auto. pose proof (pc_frame _ _ _ (k_thr c') _ SH (ki_thr _ K _ _ Q) (ki_ok _ K)) as F.
        assert (X : PcOk (mk_conc (k_reg c') (k_dead c') (k_thr c')) q) by (apply F; intros; eapply cw_reading; eauto). destruct q; exact X.
  Qed.
End Inv.
