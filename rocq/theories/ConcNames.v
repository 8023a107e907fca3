(** Names, pop_all and enable of the shared registry. *)
From Coq Require Import ZArith List Bool Lia Arith Ascii.
From Verif Require Import Base ModelTypes ModelReducer SpecReducer ModelSeparator SpecSeparator ModelAggregator SpecAggregator
  ModelRegistry SpecRegistry RegProofs RegFinal AggFinal ModelConc SpecConc ConcProofs ConcInv ConcLin.
Import ListNotations.
Local Open Scope Z_scope.

(** * The registry's invariant *)
Definition frames (r r' : registry) : Prop :=
  rg_dict r' = rg_dict r /\ map (option_map fst) (rg_arr r') = map (option_map fst) (rg_arr r).
Lemma frames_refl r : frames r r. Proof. split; auto. Qed.
Lemma frames_trans a b c : frames a b -> frames b c -> frames a c.
Proof. intros [A B] [C D]. split; congruence. Qed.
Lemma frames_sym a b : frames a b -> frames b a.
Proof. intros [A B]. split; congruence. Qed.
Lemma frames_len r r' : frames r r' -> length (rg_arr r') = length (rg_arr r).
Proof. intros [_ B]. apply (f_equal (@length _)) in B. now rewrite !map_length in B. Qed.
Lemma frames_at r r' p s g : frames r r' -> nth_error (rg_arr r) p = Some (Some (s, g)) -> exists g', nth_error (rg_arr r') p = Some (Some (s, g')).
Proof.
  intros [_ B] H. apply (map_nth_error (option_map fst)) in H. rewrite <- B in H.
  destruct (nth_error (rg_arr r') p) as [[[s' g']|]|] eqn:E.
  - rewrite (map_nth_error (option_map fst) _ _ E) in H. simpl in H. injection H as ->. eauto.
  - rewrite (map_nth_error (option_map fst) _ _ E) in H. discriminate.
  - apply nth_error_None in E. assert (X : nth_error (map (option_map fst) (rg_arr r')) p = None) by (apply nth_error_None; now rewrite map_length). congruence.
Qed.
Lemma frames_set r pos s g g' : nth_error (rg_arr r) pos = Some (Some (s, g)) -> frames r (rg_set pos (Some (s, g')) r).
Proof.
  intros H. split; auto. simpl. revert pos H. induction (rg_arr r) as [|x l IH]; intros [|p] H; simpl in *; try discriminate.
  - injection H as ->. reflexivity.
  - f_equal. auto.
Qed.
Lemma RInv_frames o k r r' : frames r r' -> rg_opt r' = rg_opt r -> rg_next r' = rg_next r -> RInv o k r -> RInv o k r'.
Proof.
  intros FR HO HN I. pose proof (frames_sym _ _ FR) as FS. destruct FR as [D B]. destruct I. constructor; rewrite ?D, ?HO, ?HN; auto.
  - intros pos s g H. destruct (frames_at _ _ _ _ _ FS H) as (g0 & H0). eauto.
  - intros n id H. destruct (ri_slot n id H) as (s & g & H0). destruct (frames_at _ _ _ _ _ (conj D B) H0) as (g' & H'). eauto.
  - intros p1 p2 s g1 g2 H1 H2. destruct (frames_at _ _ _ _ _ FS H1) as (x1 & X1). destruct (frames_at _ _ _ _ _ FS H2) as (x2 & X2). eauto.
  - rewrite (frames_len _ _ (conj D B)). auto.
Qed.

Section Names.
  Variable ne : nat -> list Z -> list Z.
  Variable o : rgopts.

  Lemma a_do_inv N (F : fits o N) k r a out r' : RInv o k r -> (k <= N)%nat -> a_do ne a r = Ok (out, r') ->
    exists k', (k <= k' <= S k)%nat /\ RInv o k' r' /\
      (forall n id, m_find name_eqb n (d_dict (rg_dict r)) = Some id -> a <> ADo (RgDel n) -> m_find name_eqb n (d_dict (rg_dict r')) = Some id).
  Proof.
    intros I Hk E. destruct a as [op|v|s v|p x c1 c2]; cbn [a_do] in E.
    - destruct (do_inv ne o N F k r op out r' I Hk E) as (k' & A & B & _ & C & _). exists k'. split; auto. split; auto.
      intros n id H ND. apply (C n id H). intros m E1 E2. subst. now apply ND.
    - injection E as <- <-. exists k. split; [lia|]. split; [|auto]. apply (RInv_frames o k r); auto. split; reflexivity.
    - injection E as <- <-. exists k. split; [lia|]. destruct (find_obj s (rg_arr r)) as [[pos g]|] eqn:EF; auto.
      apply find_obj_some in EF. pose proof (frames_set r pos s g (g_enable v g) EF) as FR. split; [eapply RInv_frames; eauto|]. auto.
    - exists k. split; [lia|]. destruct (find_obj (rp_obj p) (rg_arr r)) as [[pos g]|] eqn:EF; [|injection E as <- <-; auto].
      bind_in E og. destruct og as [o1 g1]. injection E as <- <-. apply find_obj_some in EF.
      pose proof (frames_set r pos (rp_obj p) g g1 EF) as FR. split; [eapply RInv_frames; eauto|]. auto.
  Qed.
  Lemma a_run_inv : forall ops k r outs r', fits o (k + length ops) -> RInv o k r -> a_run ne r ops = Ok (outs, r') ->
    exists k', (k <= k' <= k + length ops)%nat /\ RInv o k' r' /\
      (forall n id, m_find name_eqb n (d_dict (rg_dict r)) = Some id -> ~ In (ADo (RgDel n)) ops -> m_find name_eqb n (d_dict (rg_dict r')) = Some id).
  Proof.
    induction ops as [|a ops IH]; intros k r outs r' F I E; cbn [a_run] in E.
    - injection E as <- <-. exists k. split; [simpl; lia|]. auto.
    - bind_in E x. destruct x as [o1 r1]. bind_in E y. destruct y as [os r2]. injection E as <- <-. simpl length in *.
      destruct (a_do_inv (k + S (length ops)) F k r a o1 r1 I ltac:(lia) Ex) as (k1 & K1 & I1 & D1).
      assert (F1 : fits o (k1 + length ops)) by (eapply fits_le; [|exact F]; lia).
      destruct (IH k1 r1 os r2 F1 I1 Ey) as (k2 & K2 & I2 & D2).
      exists k2. split; [lia|]. split; auto. intros n id H ND. simpl in ND. apply D2; [apply D1; auto|]; intros X; apply ND; auto.
  Qed.
  Lemma a_run_split ops1 : forall ops2 r outs r', a_run ne r (ops1 ++ ops2) = Ok (outs, r') ->
    exists outs1 outs2 r1, outs = outs1 ++ outs2 /\ length outs1 = length ops1 /\ a_run ne r ops1 = Ok (outs1, r1) /\ a_run ne r1 ops2 = Ok (outs2, r').
  Proof.
    induction ops1 as [|a ops1 IH]; intros ops2 r outs r' E; cbn [app a_run] in *.
    - exists [], outs, r. auto.
    - bind_in E x. destruct x as [o1 r1]. bind_in E y. destruct y as [os r2]. injection E as <- <-.
      destruct (IH _ _ _ _ Ey) as (u1 & u2 & r3 & -> & L & E1 & E2). exists (o1 :: u1), u2, r3. split; auto. split; [simpl; lia|]. split; auto.
      cbn [bind]. rewrite E1. reflexivity.
  Qed.
  Lemma app_len_inj {A} (a b c d : list A) : length a = length c -> a ++ b = c ++ d -> a = c /\ b = d.
  Proof. revert c. induction a as [|x a IH]; intros [|y c] L E; simpl in *; try discriminate; auto. injection E as <- E. destruct (IH c ltac:(lia) E) as [-> ->]. auto. Qed.
  Lemma runs_split r a b r' : runs ne r (a ++ b) r' -> exists r1, runs ne r a r1 /\ runs ne r1 b r'.
  Proof.
    unfold runs. rewrite effects_app, !map_app. intros E. destruct (a_run_split _ _ _ _ _ E) as (u1 & u2 & r1 & EQ & L & E1 & E2).
    assert (LE : length (map snd (effects a)) = length u1) by (rewrite L, !map_length; reflexivity).
    destruct (app_len_inj _ _ _ _ LE EQ) as [-> ->]. eauto.
  Qed.
  Lemma runs_hd r t a x b r' : runs ne r (ELin t a x :: b) r' -> exists r1, a_do ne a r = Ok (x, r1) /\ runs ne r1 b r'.
  Proof.
    unfold runs. cbn [effects flat_map map app a_run fst snd]. intros E. bind_in E y. destruct y as [o1 r1]. bind_in E z. destruct z as [os r2]. injection E as -> -> ->. eauto.
  Qed.
  Lemma effects_del n evs : In (ADo (RgDel n)) (map fst (effects evs)) -> dels n evs.
  Proof.
    intros H. apply in_map_iff in H. destruct H as ([a x] & E & H). simpl in E. subst a. unfold effects in H. apply in_flat_map in H.
    destruct H as (e & H & HE). destruct e; try contradiction. destruct HE as [HE|[]]. injection HE as -> ->. exists t, x. auto.
  Qed.

  (** A name given out and not deleted stays. *)
  Lemma names_keep pre t0 e n now id mid t m post r : n <> [] ->
    let evs := pre ++ ELin t0 (ADo (RgCreate e n now)) (RId id) :: mid ++ ELin t (ADo (RgGetName id)) (RName m) :: post in
    fits o (length (effects evs)) -> runs ne (rg_new o) evs r -> ~ dels n mid -> m = n.
  Proof.
    intros HN evs F R ND. unfold evs in *. destruct (runs_split _ _ _ _ R) as (r0 & R0 & R1).
    destruct (runs_hd _ _ _ _ _ _ R1) as (r1 & C & R2). destruct (runs_split _ _ _ _ R2) as (r2 & R3 & R4).
    destruct (runs_hd _ _ _ _ _ _ R4) as (r3 & G & _). cbn [a_do rg_do] in G. injection G as G _.
    set (N := length (effects _)) in F.
    assert (LEN : (length (effects pre) + (1 + length (effects mid)) <= N)%nat).
    { unfold N. rewrite effects_app, app_length. simpl. rewrite effects_app, app_length. lia. }
    unfold runs in R0, R3.
    assert (F0 : fits o (0 + length (map fst (effects pre)))) by (eapply fits_le; [|exact F]; rewrite map_length; lia).
    destruct (a_run_inv _ 0 _ _ _ F0 (RInv_new o) R0) as (k0 & K0 & I0 & _). rewrite map_length in K0.
    cbn [a_do rg_do] in C. bind_in C idr. destruct idr as [i rr]. injection C as -> ->.
    destruct (create_sim ne o N F k0 r0 e n now id r1 I0 ltac:(lia) Eidr) as [_ C2].
    destruct (C2 HN) as (k1 & g1 & K1 & I1 & _ & EN & _).
    assert (F1 : fits o (k1 + length (map fst (effects mid)))) by (eapply fits_le; [|exact F]; rewrite map_length; lia).
    destruct (a_run_inv _ k1 _ _ _ F1 I1 R3) as (k2 & K2 & I2 & D2).
    rewrite <- G. apply (get_name_of o k2 r2 id n I2). apply D2; auto. intros X. apply ND. now apply effects_del.
  Qed.
  (** An id whose name is gone gives no name, until create hands it out again: the only other name it can have is one it was created for. *)

  (** * What a completed call did *)
  Lemma story_split t l : story t l -> forall a k b x c, l = a ++ EInv t k :: b ++ ERet t x :: c ->
    Forall (fun e => match e with EInv _ _ => False | _ => True end) b -> call_ok t k b x.
  Proof.
    assert (BODY : forall k body x, call_ok t k body x -> Forall (fun e => exists a y, took t a y e) body).
    { intros k body x H. eapply call_ok_took; eauto. }
    induction 1 as [|k0 body FB|k0 body x0 rest CK ST IH]; intros a k b x c E NB.
    - destruct a; discriminate.
    - exfalso. assert (X : In (ERet t x) (EInv t k0 :: body)) by (rewrite E, !in_app_iff; simpl; rewrite in_app_iff; simpl; tauto).
      destruct X as [X|X]; [discriminate|]. rewrite Forall_forall in FB. destruct (FB _ X) as (a0 & y & [T|T]); discriminate.
    - pose proof (BODY _ _ _ CK) as FB. destruct a as [|e a].
      + injection E as <- E. assert (EQ : b = body /\ x = x0 /\ c = rest); [|destruct EQ as (-> & -> & ->); auto].
        clear CK IH. revert b NB E. induction FB as [|e body (a0 & y & T) FB IHB]; intros b NB E.
        * destruct b as [|e b]; simpl in E; [injection E as -> ->; auto|]. injection E as E1 E. exfalso.
          assert (NB' : Forall (fun e => match e with EInv _ _ => False | _ => True end) b) by (now inversion NB).
          inversion ST as [X|k1 b1 F1 X|k1 b1 x1 r1 C1 S1 X]; rewrite <- X in E; destruct b as [|e0 b]; try discriminate E;
            simpl in E; injection E as E2 _; subst e0; inversion NB'; contradiction.
        * destruct b as [|e' b]; simpl in E; injection E as E0 E; [subst e; destruct T; discriminate|]. subst e'. inversion NB; subst.
          destruct (IHB _ H2 E) as (-> & -> & ->). auto.
      + simpl in E. injection E as E0 E.
        assert (EX : exists a', a = body ++ ERet t x0 :: a' /\ rest = a' ++ EInv t k :: b ++ ERet t x :: c); [|destruct EX as (a' & -> & ER); eauto].
        clear CK IH ST E0. revert a E. induction FB as [|e1 body (a0 & y & T) FB IHB]; intros a E.
        * destruct a as [|e1 a]; [discriminate|]. injection E as <- E. exists a. auto.
        * destruct a as [|e2 a]; simpl in E; injection E as E0 E; [subst e1; destruct T; discriminate|]. subst e2.
          destruct (IHB _ E) as (a' & -> & ->). exists a'. auto.
  Qed.

  Lemma quiet_of t b : quiet t b -> Forall (fun e => match e with EInv _ _ => False | _ => True end) (of t b).
  Proof.
    intros Q. apply Forall_forall. intros e H. unfold of in H. apply filter_In in H. destruct H as (H & B). unfold quiet in Q. rewrite Forall_forall in Q.
    specialize (Q _ H). destruct e; auto. apply Nat.eqb_eq in B. contradiction.
  Qed.
  Lemma completed_call n evs c t pre k body x post : Good ne o n evs c -> evs = pre ++ EInv t k :: body ++ ERet t x :: post -> quiet t body ->
    call_ok t k (of t body) x.
  Proof.
    intros G -> Q. pose proof (Good_story ne _ _ _ _ t G) as ST. eapply (story_split t _ ST (of t pre) k (of t body) x (of t post)); [|now apply quiet_of].
    rewrite of_app. f_equal. unfold of at 1. simpl. rewrite Nat.eqb_refl. f_equal. fold (of t (body ++ ERet t x :: post)). rewrite of_app. f_equal.
    unfold of. simpl. now rewrite Nat.eqb_refl.
  Qed.
  Lemma meter_names threads evs c pre t0 e n now id mid t p x c1 c2 body y post : Good ne o threads evs c -> n <> [] -> fits o (length (effects evs)) ->
    evs = pre ++ ELin t0 (ADo (RgCreate e n now)) (RId id) :: mid ++ EInv t (KMeter p id x c1 c2) :: body ++ ERet t y :: post ->
    quiet t body -> ~ dels n (mid ++ body) -> exists l, y = RNamed l /\ Forall (fun q => fst q = n) l.
  Proof.
    intros G HN F E Q ND.
    assert (CK : call_ok t (KMeter p id x c1 c2) (of t body) y).
    { eapply (completed_call threads evs c t (pre ++ ELin t0 (ADo (RgCreate e n now)) (RId id) :: mid)); eauto. rewrite E, <- app_assoc. reflexivity. }
    assert (NK : forall m b1 b2, body = b1 ++ ELin t (ADo (RgGetName id)) (RName m) :: b2 -> m = n).
    { intros m b1 b2 EB. pose proof (go_runs _ _ _ _ _ G) as R.
      assert (EV : evs = pre ++ ELin t0 (ADo (RgCreate e n now)) (RId id) :: (mid ++ EInv t (KMeter p id x c1 c2) :: b1) ++ ELin t (ADo (RgGetName id)) (RName m) :: b2 ++ ERet t y :: post).
      { rewrite E, EB. repeat (rewrite <- app_assoc; simpl). reflexivity. }
      eapply (names_keep pre t0 e n now id (mid ++ EInv t (KMeter p id x c1 c2) :: b1) t m (b2 ++ ERet t y :: post) (k_reg c) HN).
      - rewrite <- EV. exact F.
      - rewrite <- EV. exact R.
      - intros (td & od & X). apply ND. exists td, od. rewrite EB, !in_app_iff in *. simpl in X. destruct X as [X|[X|X]]; [auto|discriminate|auto]. }
    clear ND E F G. inversion CK as [| | | | | |? ? ? ? ? ev T B|? ? ? ? ? ev recs m T EB]; subst; [exists []; auto|].
    eexists; split; [reflexivity|].
    assert (IN : In (ELin t (ADo (RgGetName id)) (RName m)) body).
    { assert (X : In (ELin t (ADo (RgGetName id)) (RName m)) (of t body)) by (match goal with H : _ = of t body |- _ => rewrite <- H end; simpl; auto). unfold of in X. apply filter_In in X. tauto. }
    apply in_split in IN. destruct IN as (b1 & b2 & EQ).
    assert (m = n) by eauto.
    subst m. destruct n; [congruence|]. apply Forall_forall. intros q H. apply in_map_iff in H. destruct H as (ax & <- & _). reflexivity.
  Qed.

  (** * pop_all and enable reach every aggregator *)
  Definition got (r : registry) (id : Z) : bool := match rg_get id r with Ok (Some _) => true | _ => false end.
  Definition ids_at (r : registry) (is : list nat) : list Z :=
    flat_map (fun i => match d_pos2id i (rg_dict r) with Ok id => if got r id then [id] else [] | _ => [] end) is.
  Definition objs_at (r : registry) (is : list nat) : list nat :=
    flat_map (fun i => match nth_error (rg_arr r) i with Some (Some (s, _)) => [s] | _ => [] end) is.
  Definition all (r : registry) : list nat := seq 0 (length (rg_arr r)).
  Lemma got_frames r r' id : frames r r' -> got r' id = got r id.
  Proof.
    intros FR. unfold got, rg_get. destruct (id =? bad_id); auto. destruct FR as [D B]. rewrite D. destruct (d_id2pos id (rg_dict r)) as [p| |]; auto. cbn [bind].
    destruct (nth_error (rg_arr r) p) as [[[s g]|]|] eqn:E1.
    - destruct (frames_at _ _ _ _ _ (conj D B) E1) as (g' & ->). reflexivity.
    - destruct (nth_error (rg_arr r') p) as [[[s g]|]|] eqn:E2; auto. destruct (frames_at _ _ _ _ _ (frames_sym _ _ (conj D B)) E2) as (g' & X). congruence.
    - destruct (nth_error (rg_arr r') p) as [[[s g]|]|] eqn:E2; auto. destruct (frames_at _ _ _ _ _ (frames_sym _ _ (conj D B)) E2) as (g' & X). congruence.
  Qed.
  Definition plain (k : kop) : Prop := match k with KOp (RgPopAll _ _) | KOp (RgEnable _) => False | _ => True end.
  Definition todo (t : nat) (k : kop) (mid : list event) (r0 r : registry) (p : pc) : Prop :=
    match p with
    | PPop f clk is _ | PPopped f clk is _ _ _ =>
        k = KOp (RgPopAll f clk) /\ frames r0 r /\ visited t mid ++ ids_at r0 is = ids_at r0 (all r0)
    | PEnable v is => k = KOp (RgEnable v) /\ frames r0 r /\ switched t mid ++ objs_at r0 is = objs_at r0 (all r0)
    | _ => plain k
    end.
  Definition finished (t : nat) (k : kop) (mid : list event) (r0 : registry) : Prop :=
    match k with
    | KOp (RgPopAll _ _) => visited t mid = ids_at r0 (all r0)
    | KOp (RgEnable _) => switched t mid = objs_at r0 (all r0)
    | _ => True
    end.
  Definition VInv (evs : list event) (c : conc) : Prop :=
    forall t p, nth_error (k_thr c) t = Some p -> p <> PIdle ->
      exists pre k mid r0, evs = pre ++ EInv t k :: mid /\ quiet t mid /\ runs ne (rg_new o) pre r0 /\ todo t k mid r0 (k_reg c) p.

  Lemma quiet_app t a b : quiet t (a ++ b) <-> quiet t a /\ quiet t b. Proof. apply Forall_app. Qed.
  Lemma last_inv t : forall pre k mid pre' k' mid', pre ++ EInv t k :: mid = pre' ++ EInv t k' :: mid' -> quiet t mid -> quiet t mid' ->
    pre = pre' /\ k = k' /\ mid = mid'.
  Proof.
    assert (NO : forall k a b, ~ quiet t (a ++ EInv t k :: b)).
    { intros k a b Q. apply quiet_app in Q. destruct Q as [_ Q]. inversion Q; subst. congruence. }
    induction pre as [|e pre IH]; intros k mid [|e' pre'] k' mid' E Q Q'; simpl in E; injection E as E0 E.
    - subst. auto.
    - subst. exfalso. eapply NO; eauto.
    - subst. exfalso. eapply NO; eauto.
    - destruct (IH _ _ _ _ _ E Q Q') as (-> & -> & ->). subst. auto.
  Qed.

  Lemma call_frames s g c x reg c' : k_call ne s g c = Ok (x, reg, c') -> frames (k_reg c) (k_reg c').
  Proof.
    intros E. destruct (call_shape _ _ _ _ _ _ _ E) as (g0 & g1 & _ & _ & [(_ & pos & A & E1 & _)|(_ & _ & E1 & _)]); rewrite E1; [|apply frames_refl].
    eapply frames_set; eauto.
  Qed.
  Lemma step_frames t c k p ev r' d' p' : Kstep ne t c k p ev r' d' p' -> can_write c = true \/ frames (k_reg c) r'.
  Proof.
    intros S. destruct S; subst; auto using frames_refl; try (right; eapply call_frames; eassumption).
    destruct op; auto; try contradiction.
    - rewrite (call_none _ _ _ _ H1) in H2. injection H2 as <- <-. right. apply frames_refl.
    - cbn [rg_do] in H2. injection H2 as <- <-. right. apply frames_refl.
    - cbn [rg_do] in H2. bind_in H2 q. injection H2 as <- <-. right. apply frames_refl.
  Qed.
  Lemma visited_app t a b : visited t (a ++ b) = visited t a ++ visited t b. Proof. apply flat_map_app. Qed.
  Lemma switched_app t a b : switched t (a ++ b) = switched t a ++ switched t b. Proof. apply flat_map_app. Qed.
  Lemma visited_other t t' c k p ev r' d' p' : t <> t' -> Kstep ne t c k p ev r' d' p' -> visited t' ev = [] /\ switched t' ev = [].
  Proof.
    intros N S. apply Nat.eqb_neq in N.
    assert (A : Forall (fun e => match e with ELin t0 _ _ => t0 = t | _ => True end) ev).
    { destruct S; subst; unfold lin; repeat (apply Forall_app; split); repeat constructor; try (destruct reg; reflexivity). destruct (out_ptr o0); repeat constructor. }
    clear S. induction A as [|e ev He A (IH1 & IH2)]; auto. split.
    - cbn [visited flat_map]. fold (visited t' ev). rewrite IH1, app_nil_r. destruct e as [|t0 [[]| | |]| | | |]; auto. destruct op; auto. subst t0. now rewrite N.
    - cbn [switched flat_map]. fold (switched t' ev). rewrite IH2, app_nil_r. destruct e as [|t0 [[]| | |]| | | |]; auto. subst t0. now rewrite N.
  Qed.

  Lemma cover_step evs c t k p ev p' c' : KInv c -> runs ne (rg_new o) evs (k_reg c) -> VInv evs c -> nth_error (k_thr c) t = Some p ->
    Kstep ne t c k p ev (k_reg c') (k_dead c') p' -> k_thr c' = set_nth t p' (k_thr c) ->
    VInv (evs ++ ev) c' /\
    forall e1 t' x e2 pre k0 mid, ev = e1 ++ ERet t' x :: e2 -> evs ++ e1 = pre ++ EInv t' k0 :: mid -> quiet t' mid ->
      exists r0, runs ne (rg_new o) pre r0 /\ finished t' k0 mid r0.
  Proof.
    intros K RU V ET S TH. split.
    - intros t' q Q NI. rewrite TH in Q. destruct (Nat.eq_dec t t') as [<-|N].
      + rewrite set_nth_same in Q by (now apply nth_error_lt in ET). injection Q as <-.
        assert (NEW : forall ev1, ev = EInv t k :: ev1 -> quiet t ev1 -> todo t k ev1 (k_reg c) (k_reg c') p' ->
          exists pre k mid r0, evs ++ ev = pre ++ EInv t k :: mid /\ quiet t mid /\ runs ne (rg_new o) pre r0 /\ todo t k mid r0 (k_reg c') p').
        { intros ev1 -> Q1 T1. exists evs, k, ev1, (k_reg c). auto. }
        assert (OLD : p <> PIdle -> (forall k0 mid r0, todo t k0 mid r0 (k_reg c) p -> todo t k0 (mid ++ ev) r0 (k_reg c') p') ->
          exists pre k mid r0, evs ++ ev = pre ++ EInv t k :: mid /\ quiet t mid /\ runs ne (rg_new o) pre r0 /\ todo t k mid r0 (k_reg c') p').
        { intros NP T1. destruct (V _ _ ET NP) as (pre & k0 & mid & r0 & -> & Q0 & R0 & T0). exists pre, k0, (mid ++ ev), r0.
          rewrite <- app_assoc. split; auto. split; [apply quiet_app; split; auto; eapply quiet_next; eauto|]. auto. }
        clear V TH RU. revert S NEW OLD. generalize (k_reg c') (k_dead c'). intros r' d' S NEW OLD.
        destruct S; subst; try congruence; try (apply OLD; [discriminate|]; simpl; tauto);
          try (apply (NEW []); [reflexivity|constructor|]; simpl; try (destruct dest); exact I).
        * apply OLD; auto. intros. now rewrite app_nil_r.
        * eapply NEW; [reflexivity|repeat constructor|exact I].
        * eapply NEW; [reflexivity|repeat constructor|exact I].
        * eapply NEW; [reflexivity|repeat constructor|]. simpl. split; auto. split; [apply frames_refl|]. reflexivity.
        * eapply NEW; [reflexivity|repeat constructor|]. simpl. split; auto. split; [split; reflexivity|]. reflexivity.
        * apply OLD; [discriminate|]. simpl. intros k0 mid r0 (A & FR & C). rewrite app_nil_r. split; auto. split; auto. rewrite <- C.
          cbn [ids_at flat_map]. destruct FR as [D B]. rewrite <- D, H, <- (got_frames r0 (k_reg c) id (conj D B)). unfold got at 1. rewrite H0. reflexivity.
        * apply OLD; [discriminate|]. simpl. intros k0 mid r0 (A & FR & C). split; auto. split; [eapply frames_trans; eauto; eapply call_frames; eauto|].
          rewrite visited_app, <- C, <- app_assoc. f_equal. cbn [ids_at flat_map]. pose proof FR as [D B]. rewrite <- D, H1, <- (got_frames r0 (k_reg c) id FR). unfold got at 1. rewrite H.
          destruct (call_shape _ _ _ _ _ _ _ H0) as (g1 & g2 & _ & _ & [(-> & _)|(_ & NA & _)]); [|exfalso; eapply NA; eapply get_in; eauto].
          unfold lin, visited. simpl. now rewrite Nat.eqb_refl.
        * apply OLD; [discriminate|]. simpl. intros k0 mid r0 (A & FR & C). split; auto. split; [eapply frames_trans; eauto; eapply call_frames; eauto|].
          rewrite visited_app, <- C. f_equal. etransitivity; [|apply app_nil_r]. f_equal. unfold g. destruct reg, f, (out_ptr o0); reflexivity.
        * apply OLD; [discriminate|]. simpl. intros k0 mid r0 (A & FR & C). rewrite app_nil_r. split; auto. split; auto. rewrite <- C. f_equal.
          cbn [objs_at flat_map]. destruct (nth_error (rg_arr r0) i) as [[[s g]|]|] eqn:E; auto. destruct (frames_at _ _ _ _ _ FR E) as (g' & X). exfalso. eapply H; eauto.
        * apply OLD; [discriminate|]. simpl. intros k0 mid r0 (A & FR & C). split; auto. split; [eapply frames_trans; eauto; eapply call_frames; eauto|].
          rewrite switched_app, <- C, <- app_assoc. f_equal. cbn [objs_at flat_map]. destruct (frames_at _ _ _ _ _ (frames_sym _ _ FR) H) as (g' & ->).
          destruct (call_shape _ _ _ _ _ _ _ H0) as (g1 & g2 & _ & _ & [(-> & _)|(_ & NA & _)]); [|exfalso; eapply NA; eauto].
          unfold lin, switched. simpl. now rewrite Nat.eqb_refl.
      + rewrite set_nth_other in Q by auto. destruct (V _ _ Q NI) as (pre & k0 & mid & r0 & -> & Q0 & R0 & T0). exists pre, k0, (mid ++ ev), r0.
        rewrite <- app_assoc. split; auto. split; [apply quiet_app; split; auto; eapply quiet_other; eauto|]. split; auto.
        destruct (visited_other _ _ _ _ _ _ _ _ _ N S) as (VO & SO).
        assert (FR : reading q = true \/ writing q = true -> frames (k_reg c) (k_reg c')).
        { intros RW. destruct (step_frames _ _ _ _ _ _ _ _ S) as [CW|]; auto. destruct (cw_reading _ _ _ CW Q) as (A & B). destruct RW; congruence. }
        destruct q; simpl in *; auto; destruct T0 as (A & B & C); (split; [auto|]); (split; [eapply frames_trans; eauto|]);
          rewrite ?visited_app, ?switched_app, ?VO, ?SO, app_nil_r; auto.
    - intros e1 t' x e2 pre k0 mid EV EQ Q0.
      destruct (Nat.eq_dec t t') as [<-|N].
      2: { exfalso. assert (X : In (ERet t' x) (of t' ev)) by (unfold of; apply filter_In; split; [rewrite EV, in_app_iff; simpl; auto|apply Nat.eqb_refl]).
           rewrite (story_other _ _ _ _ _ _ _ _ _ _ N S) in X. destruct X. }
      assert (NEW : forall ev1, e1 = EInv t k :: ev1 -> quiet t ev1 -> plain k -> exists r0, runs ne (rg_new o) pre r0 /\ finished t k0 mid r0).
      { intros ev1 -> Q1 PL. destruct (last_inv t _ _ _ _ _ _ EQ Q1 Q0) as (-> & -> & ->). exists (k_reg c). split; auto. destruct k0 as [[]|]; simpl in *; auto; contradiction. }
      destruct p; try (
        assert (NP : ltac:(match type of ET with _ = Some ?q => exact (q <> PIdle) end)) by discriminate;
        destruct (V _ _ ET NP) as (pre0 & k1 & mid0 & r0 & EE & QM & R0 & T0);
        assert (QE : quiet t e1) by (pose proof (quiet_next _ _ _ _ _ _ _ _ _ NP S) as QX; rewrite EV in QX; apply quiet_app in QX; tauto);
        rewrite EE, <- app_assoc in EQ; simpl in EQ; destruct (last_inv t _ _ _ _ _ _ EQ (proj2 (quiet_app t _ _) (conj QM QE)) Q0) as (<- & <- & <-);
        exists r0; split; [exact R0|]).
      + assert (IR : In (ERet t x) ev) by (rewrite EV, in_app_iff; simpl; auto). pose (P := fun l : list event => l = e1 ++ ERet t x :: e2). assert (EP : P ev) by exact EV. clear EV.
        clear V TH. revert S. generalize (k_reg c') (k_dead c'). intros r' d' S.
        assert (THREE : forall a y z, [EInv t k; ELin t a y; ERet t z] = e1 ++ ERet t x :: e2 -> e1 = [EInv t k; ELin t a y]).
        { intros a y z E. destruct e1 as [|? [|? [|? [|? ?]]]]; try discriminate. injection E as <- <- _ _. reflexivity. }
        inversion S; subst; simpl in IR; repeat match goal with H : _ \/ _ |- _ => destruct H as [H|H]; try discriminate H end; try contradiction.
        * eapply NEW; [eapply THREE; exact EP|repeat constructor|]. match goal with H : single ?op |- _ => destruct op; auto; exact I end.
        * eapply NEW; [eapply THREE; exact EP|repeat constructor|exact I].
        * eapply NEW; [eapply THREE; exact EP|repeat constructor|]. destruct dest; exact I.
      + destruct k1 as [[]|]; simpl in *; auto; contradiction.
      + destruct k1 as [[]|]; simpl in *; auto; contradiction.
      + destruct k1 as [[]|]; simpl in *; auto; contradiction.
      + destruct k1 as [[]|]; simpl in *; auto; contradiction.
      + destruct k1 as [[]|]; simpl in *; auto; contradiction.
      + destruct k1 as [[]|]; simpl in *; auto; contradiction.
      + assert (IR : In (ERet t x) ev) by (rewrite EV, in_app_iff; simpl; auto). pose (P := fun l : list event => l = e1 ++ ERet t x :: e2). assert (EP : P ev) by exact EV. clear EV. destruct T0 as (-> & FR & C).
        clear V TH EE EQ Q0 NEW. revert S. generalize (k_reg c') (k_dead c'). intros r' d' S.
        inversion S; subst; simpl in IR; repeat match goal with H : _ \/ _ |- _ => destruct H as [H|H]; try discriminate H end; try contradiction.
        * unfold P in EP. destruct e1 as [|? [|? ?]]; try discriminate EP. simpl. rewrite app_nil_r. now rewrite app_nil_r in C.
        * destruct reg; discriminate.
      + exfalso. assert (IR : In (ERet t x) ev) by (rewrite EV, in_app_iff; simpl; auto). pose (P := fun l : list event => l = e1 ++ ERet t x :: e2). assert (EP : P ev) by exact EV. clear EV.
        clear V TH EE EQ Q0 NEW. revert S. generalize (k_reg c') (k_dead c'). intros r' d' S.
        inversion S; subst; simpl in IR; repeat match goal with H : _ \/ _ |- _ => destruct H as [H|H]; try discriminate H end; try contradiction.
        * destruct reg; discriminate.
        * destruct (out_ptr o0); simpl in IR; [destruct IR as [IR|[]]; discriminate|contradiction].
      + assert (IR : In (ERet t x) ev) by (rewrite EV, in_app_iff; simpl; auto). pose (P := fun l : list event => l = e1 ++ ERet t x :: e2). assert (EP : P ev) by exact EV. clear EV. destruct T0 as (-> & FR & C).
        clear V TH EE EQ Q0 NEW. revert S. generalize (k_reg c') (k_dead c'). intros r' d' S.
        inversion S; subst; simpl in IR; repeat match goal with H : _ \/ _ |- _ => destruct H as [H|H]; try discriminate H end; try contradiction.
        * unfold P in EP. destruct e1 as [|? [|? ?]]; try discriminate EP. simpl. rewrite app_nil_r. now rewrite app_nil_r in C.
        * destruct reg; discriminate.
  Qed.

  Lemma cover_run threads sched evs c : k_run ne (k_new o threads) sched = Ok (evs, c) ->
    forall pre t k mid x post, evs = pre ++ EInv t k :: mid ++ ERet t x :: post -> quiet t mid ->
      exists r0, runs ne (rg_new o) pre r0 /\ finished t k mid r0.
  Proof.
    assert (GEN : forall sched evs0 c0 evs c, Good ne o threads evs0 c0 -> VInv evs0 c0 ->
      (forall pre t k mid x post, evs0 = pre ++ EInv t k :: mid ++ ERet t x :: post -> quiet t mid -> exists r0, runs ne (rg_new o) pre r0 /\ finished t k mid r0) ->
      k_run ne c0 sched = Ok (evs, c) ->
      forall pre t k mid x post, evs0 ++ evs = pre ++ EInv t k :: mid ++ ERet t x :: post -> quiet t mid -> exists r0, runs ne (rg_new o) pre r0 /\ finished t k mid r0).
    { induction sched0 as [|[t k] sched0 IH]; intros evs0 c0 evs1 c1 G V P E; cbn [k_run] in E.
      - injection E as <- <-. rewrite app_nil_r. auto.
      - bind_in E x. destruct x as [ev c2]. bind_in E y. destruct y as [evs2 c3]. injection E as <- <-.
        rewrite app_assoc. apply (IH _ c2 evs2 c3); auto.
        + eapply Good_step; eauto.
        + destruct (step_Kstep _ _ _ _ _ _ Ex) as [(_ & -> & ->)|(p & p' & ET & S & TH)]; [now rewrite app_nil_r|].
          eapply cover_step; eauto; apply G.
        + intros pre t' k' mid x post EQ Q. destruct (step_Kstep _ _ _ _ _ _ Ex) as [(_ & -> & ->)|(p & p' & ET & S & TH)]; [rewrite app_nil_r in EQ; eauto|].
          destruct (split_late evs0 ev (pre ++ EInv t' k' :: mid) post (ERet t' x)) as [(p1 & X)|(e1 & X & Y)].
          { rewrite EQ, <- app_assoc. reflexivity. }
          * eapply P; eauto. rewrite X, <- app_assoc. reflexivity.
          * destruct (cover_step _ _ _ _ _ _ _ _ (go_inv _ _ _ _ _ G) (go_runs _ _ _ _ _ G) V ET S TH) as (_ & C). eapply C; eauto. }
    intros E. apply (GEN sched [] (k_new o threads) evs c); auto.
    - apply Good_new.
    - intros t p H NP. simpl in H. apply nth_error_In, repeat_spec in H. contradiction.
    - intros [|? pre]; discriminate.
  Qed.

  (** In terms of registered names. *)
  Lemma ids_registered N k r : fits o N -> RInv o k r -> (k <= N)%nat ->
    NoDup (ids_at r (all r)) /\ forall id, In id (ids_at r (all r)) <-> exists n s g, registered r n id s g.
  Proof.
    intros F I Hk.
    assert (AT : forall i, (i < length (rg_arr r))%nat -> forall id, In id (ids_at r [i]) ->
      exists n j s g, id = nth_id o j /\ idx o j = i /\ m_find name_eqb n (d_dict (rg_dict r)) = Some id /\ rg_get id r = Ok (Some (posn (rgo_step o) id, (s, g)))).
    { intros i Hi id H. destruct (pop_index o N F k r i I Hk Hi) as (id' & E & D). unfold ids_at in H. simpl in H. rewrite E, app_nil_r in H. unfold got in H.
      destruct D as [(D & _)|(n & j & s & g & D1 & D2 & D3 & D4 & D5)]; [rewrite D in H; contradiction|]. rewrite D5 in H. destruct H as [<-|[]]. exists n, j, s, g. auto. }
    assert (SPLIT : forall is id, In id (ids_at r is) <-> exists i, In i is /\ In id (ids_at r [i])).
    { intros is id. unfold ids_at at 1. rewrite in_flat_map. split; intros (i & A & B); exists i; (split; [auto|]); unfold ids_at in *; simpl in *; rewrite app_nil_r in *; auto. }
    split.
    - unfold all. assert (ND : forall is, NoDup is -> (forall i, In i is -> (i < length (rg_arr r))%nat) -> NoDup (ids_at r is)).
      { induction is as [|i is IH]; intros D L; [constructor|]. inversion D; subst.
        assert (E : ids_at r (i :: is) = ids_at r [i] ++ ids_at r is) by (unfold ids_at; simpl; now rewrite app_nil_r).
        rewrite E. clear E. assert (IS : NoDup (ids_at r is)) by (apply IH; auto; intros; apply L; right; auto).
        destruct (ids_at r [i]) as [|id l] eqn:EI; auto.
        assert (l = []) as ->. { unfold ids_at in EI. simpl in EI. rewrite app_nil_r in EI. destruct (d_pos2id i (rg_dict r)); try discriminate. destruct (got r a); try discriminate. now injection EI. }
        constructor; auto. intros X. apply SPLIT in X. destruct X as (i2 & A & B).
        destruct (AT i2 (L _ (or_intror A)) _ B) as (n2 & j2 & _ & _ & E1 & E2 & _).
        destruct (AT i (L _ (or_introl eq_refl)) id) as (n1 & j1 & _ & _ & E3 & E4 & _); [rewrite EI; left; auto|].
        assert (j1 = j2) by (apply (nth_id_inj o); [apply F|congruence]). subst. contradiction. }
      apply ND; [apply seq_NoDup|]. intros i H. apply in_seq in H. lia.
    - intros id. rewrite SPLIT. split.
      + intros (i & A & B). unfold all in A. apply in_seq in A. destruct (AT i ltac:(lia) id B) as (n & j & s & g & _ & _ & E1 & E2).
        exists n, s, g. split; [|split]; [intros ->; rewrite (ri_noname _ _ _ I) in E1; discriminate|apply (get_name_of o k r id n I E1)|eauto].
      + intros (n & s & g & R). apply (registered_slot o N F k r n id s g I Hk) in R. destruct R as (HN & SL).
        destruct (slot_live o k r n id s g I SL) as (_ & EM & EA). destruct (ri_live _ _ _ I _ _ EM) as (j & Hj & ->).
        assert (L : (idx o j < length (rg_arr r))%nat). { apply nth_error_lt in EA. rewrite (posn_idx o N F) in EA. lia. }
        exists (idx o j). split; [unfold all; apply in_seq; lia|].
        destruct (pop_index o N F k r (idx o j) I Hk L) as (id' & E & [(_ & D)|(n' & j' & s' & g' & D1 & D2 & D3 & D4 & D5)]); [exfalso; eapply D; eauto|].
        assert (j' = j) by (unfold idx in D2; lia). subst j' id'. unfold ids_at. simpl. rewrite E. unfold got. rewrite D5. left. reflexivity.
  Qed.
  Lemma objs_registered N k r : fits o N -> RInv o k r -> (k <= N)%nat ->
    NoDup (objs_at r (all r)) /\ forall s, In s (objs_at r (all r)) <-> exists n id g, registered r n id s g.
  Proof.
    intros F I Hk.
    assert (AT : forall i s, In s (objs_at r [i]) <-> exists g, nth_error (rg_arr r) i = Some (Some (s, g))).
    { intros i s. unfold objs_at. simpl. rewrite app_nil_r. destruct (nth_error (rg_arr r) i) as [[[s0 g0]|]|]; simpl; split; try contradiction; try (intros (g & H); discriminate).
      - intros [<-|[]]. eauto.
      - intros (g & H). injection H as -> ->. auto. }
    assert (SPLIT : forall is s, In s (objs_at r is) <-> exists i, In i is /\ In s (objs_at r [i])).
    { intros is id. unfold objs_at at 1. rewrite in_flat_map. split; intros (i & A & B); exists i; (split; [auto|]); unfold objs_at in *; simpl in *; rewrite app_nil_r in *; auto. }
    split.
    - unfold all. assert (ND : forall is, NoDup is -> NoDup (objs_at r is)).
      { induction is as [|i is IH]; intros D; [constructor|]. inversion D; subst.
        assert (E : objs_at r (i :: is) = objs_at r [i] ++ objs_at r is) by (unfold objs_at; simpl; now rewrite app_nil_r).
        rewrite E. clear E. destruct (objs_at r [i]) as [|s l] eqn:EI; [apply IH; auto|].
        assert (l = []) as ->. { unfold objs_at in EI. simpl in EI. rewrite app_nil_r in EI. destruct (nth_error (rg_arr r) i) as [[[s0 g0]|]|]; try discriminate. now injection EI. }
        constructor; [|apply IH; auto]. intros X. apply SPLIT in X. destruct X as (i2 & A & B). apply AT in B. destruct B as (g2 & B).
        assert (X1 : In s (objs_at r [i])) by (rewrite EI; left; auto). apply AT in X1. destruct X1 as (g1 & X1).
        assert (i = i2) by (eapply (ri_uniq _ _ _ I); eauto). subst. contradiction. }
      apply ND. apply seq_NoDup.
    - intros s. rewrite SPLIT. split.
      + intros (i & _ & B). apply AT in B. destruct B as (g & B). destruct (live_slot o k r s I) as (n & id & g' & SL); [exists i, g; auto|].
        exists n, id, g'. apply (registered_slot o N F k r n id s g' I Hk). split; auto.
        destruct (slot_live o k r n id s g' I SL) as (_ & EM & _). intros ->. rewrite (ri_noname _ _ _ I) in EM. discriminate.
      + intros (n & id & g & R). apply (registered_slot o N F k r n id s g I Hk) in R. destruct R as (HN & SL).
        destruct (slot_live o k r n id s g I SL) as (_ & EM & EA). exists (posn (rgo_step o) id). split; [|apply AT; eauto].
        unfold all. apply in_seq. apply nth_error_lt in EA. lia.
  Qed.
End Names.
