(** A whole program: what the handler and the callers get for a name against what was measured for it. *)
From Coq Require Import ZArith List Bool Permutation Lia Arith Ascii.
From Verif Require Import Base ModelTypes ModelAvg ModelReducer SpecReducer ModelSeparator SpecSeparator ModelAggregator SpecAggregator
  SepProofs SepSpecProofs SepRun AggProofs AggRun AggFinal ModelRegistry SpecRegistry RegProofs RegFinal
  ModelComposite ModelMeters ModelSystem SpecSystem SystemProofs.
Import ListNotations.
Local Open Scope Z_scope.

Lemma clean_id o N k r id : fits o N -> (k <= N)%nat -> RInv o k r -> id_use o id -> rg_get_name id r <> [] \/ rg_get id r = Ok None.
Proof.
  intros F Hk I [S1 B]. destruct (list_eq_dec ascii_dec (rg_get_name id r) []) as [GN|]; auto. right.
  unfold rg_get. destruct (id =? bad_id); auto.
  unfold d_id2pos. rewrite (ri_step _ _ _ I), S1. simpl (1 =? 0). cbn [bind].
  replace (id + 1 - 1) with id by lia. rewrite Z.div_1_r. unfold u64. rewrite Z.mod_small by auto.
  destruct (nth_error (rg_arr r) (Z.to_nat id)) as [[[s g]|]|] eqn:E; auto.
  destruct (ri_arr _ _ _ I _ _ _ E) as (_ & n & i & EN & P). rewrite S1 in P. unfold posn in P.
  replace (i + 1 - 1) with i in P by lia. rewrite Z.div_1_r in P.
  destruct (ri_live _ _ _ I _ _ EN) as (j & Hj & ->). pose proof (id_range o N F j ltac:(lia)).
  assert (id = nth_id o j) by lia. subst id. pose proof (get_name_of o k r _ _ I EN) as G. rewrite GN in G. subst n.
  rewrite (ri_noname _ _ _ I) in EN. discriminate.
Qed.

Lemma Forall2_nth_l {A B} (P : A -> B -> Prop) l l' : Forall2 P l l' -> forall i x, nth_error l i = Some x -> exists y, nth_error l' i = Some y /\ P x y.
Proof. induction 1; intros [|i] z E; simpl in *; try discriminate; [injection E as <-; eauto|eauto]. Qed.

Section Run.
  Variable ne : nat -> list Z -> list Z.
  Hypothesis Hne : nth_element_ok ne.
  Variable o : rgopts.
  Variable N : nat.
  Hypothesis F : fits o N.
  Let ao := rgo_agg o.
  Let res := so_res (ao_sep ao).
  Hypothesis Hs : 0 < so_step (ao_sep ao).
  Variables st mo hh : bool.
  Hypothesis Hmo : mo = true -> hh = true.
  Variable n : name.
  Hypothesis Hn : n <> [].
  Notation Reg := (Reg ne o N st mo n).
  Notation ev := (ev o st n).
  Notation objof := (objof o).

  Definition pusher_ok (r : registry) (p : rpusher) (d : dest) (m : name) : Prop :=
    (rp_obj p < rg_next r)%nat /\ m <> [] /\ (m = n -> rp_pu p = mk_pusher true hh) /\
    (forall m' i, objof r m' = Some (i, rp_obj p) -> m' = m /\ (d = DName m \/ d = DId i)) /\
    (st = true -> m = n -> exists i, objof r n = Some (i, rp_obj p)).
  Lemma pusher_ev r r' p d m : ev r r' -> pusher_ok r p d m -> pusher_ok r' p d m.
  Proof.
    intros (E1 & E2 & E3) (P1 & P2 & P3 & P4 & P5). split; [lia|]. split; auto. split; auto. split.
    - intros m' i H. apply P4. apply E2; auto.
    - intros HST EM. destruct (P5 HST EM) as [i H]. exists i. auto.
  Qed.
  Lemma bad_pusher h r : rg_pusher bad_id h r = Ok None.
  Proof. reflexivity. Qed.
  Lemma pusher_new k r S G T m id s q : Reg k r S G T -> objof r m = Some (id, s) -> rg_pusher id hh r = Ok q ->
    id <> bad_id /\ exists p, q = Some p /\ forall d, d = DName m \/ d = DId id -> pusher_ok r p d m.
  Proof.
    intros (I & Hk & HI & HE & HC) HO E. pose proof (obj_named o k r m id s I HO) as [GN NM].
    assert (OBJ := HO). unfold SystemProofs.objof in HO. destruct (slot o r m) as [[[i s0] g]|] eqn:ES; [|discriminate]. injection HO as -> ->.
    destruct (slot_live o k r m id s g I ES) as (_ & E1 & E2).
    destruct (rg_get_live o N F k r m id I Hk E1) as (s1 & g1 & G1 & G2).
    assert (Some (Some (s1, g1)) = Some (Some (s, g))) as X by (rewrite <- E2; symmetry; exact G1). injection X as -> ->.
    split. { intros ->. discriminate G2. }
    unfold rg_pusher in E. rewrite G2 in E. cbn [bind] in E. injection E as <-. eexists. split; [reflexivity|]. intros d Hd.
    split; [exact (obj_young o k r m id s I OBJ)|]. split; auto. simpl. split; [|split].
    - intros ->. unfold g_create_pusher. unfold aggof in HC. rewrite ES in HC. destruct HC as ((? & ? & ? & ? & (a & (_ & ID & _) & _) & _) & _).
      now rewrite ID.
    - intros m' i H. destruct (obj_name o N F k r m m' id i s I OBJ H) as [-> ->]. auto.
    - intros _ ->. eauto.
  Qed.
  (** a pusher asked for by number *)
  Lemma pusher_by_id k r S G T id h q : Reg k r S G T -> id_use o id -> (id <> bad_id -> h = hh) -> rg_pusher id h r = Ok q ->
    match q with None => True | Some p => pusher_ok r p (DId id) (rg_get_name id r) end.
  Proof.
    intros R U Hh E. destruct q as [p|]; auto. pose proof R as (I & Hk & _).
    destruct (Z.eq_dec id bad_id) as [->|NB]; [rewrite bad_pusher in E; discriminate|]. specialize (Hh NB). subst h.
    destruct (clean_id o N k r id F Hk I U) as [GN|GN].
    - unfold rg_get_name, d_get_name in GN. destruct (m_find Z.eqb id (d_index (rg_dict r))) as [m|] eqn:EM; [|contradiction GN; reflexivity].
      pose proof (proj2 (ri_inv _ _ _ I m id) EM) as EN. destruct (slot_some o k r m id I EN) as (s & g & ES & _).
      assert (OBJ : objof r m = Some (id, s)) by (unfold SystemProofs.objof; now rewrite ES).
      destruct (obj_named o k r m id s I OBJ) as [-> _].
      destruct (pusher_new k r S G T m id s (Some p) R OBJ E) as (_ & p' & X & P). injection X as <-. apply P. auto.
    - unfold rg_pusher in E. rewrite GN in E. discriminate.
  Qed.

  (** calling a pusher *)
  Lemma R_push k r S G T p d m x c1 c2 recs r' : Reg k r S G T -> pusher_ok r p d m -> rg_call_pusher ne p x c1 c2 r = Ok (recs, r') ->
    op_typed (sm_op x) -> match x with SmList _ _ => False | _ => True end ->
    (st = true -> T <= given_time res c1 (sm_ts x)) ->
    Reg k r' (S ++ if name_eqb m n then [x] else []) (G ++ if name_eqb m n then recs else []) (given_time res c1 (sm_ts x)) /\ ev r r' /\
    (recs = [] \/ d = DName m \/ exists i, d = DId i /\ rg_get_name i r' = m).
  Proof.
    intros R (P1 & P2 & P3 & P4 & P5) E HT HL HK. pose proof R as (I & Hk & HI & HE & HC).
    destruct (push_sim ne o N F k r p x c1 c2 recs r' I Hk E) as (I' & [FL1 FL2] & ED & DEAD & SL).
    assert (EV : ev r r').
    { unfold rg_call_pusher in E. destruct (find_obj (rp_obj p) (rg_arr r)) as [[pos g]|] eqn:EF.
      - destruct (g_call_pusher _ (rp_pu p) g) as [[l g']| |]; cbn [bind] in E; try discriminate. injection E as <- <-.
        apply find_obj_some in EF. apply ev_same; [reflexivity|]. intros m'. exact (set_obj o r pos (rp_obj p) g g' m' EF).
      - injection E as <- <-. apply ev_refl. }
    split; [|split; [exact EV|]].
    - split; auto. split; auto. split; [congruence|]. split; [rewrite FL1; auto|]. specialize (SL n Hn).
      destruct (slot o r n) as [[[id s] g]|] eqn:ES.
      + destruct (Nat.eqb_spec s (rp_obj p)) as [->|NE].
        * destruct (P4 n id) as [<- _]; [unfold SystemProofs.objof; now rewrite ES|]. rewrite name_eqb_refl.
          assert (PU := P3 eq_refl). unfold aggof in HC. rewrite ES in HC.
          assert (ID : g_id g = true) by (destruct HC as ((? & ? & ? & ? & (a & (_ & ID & _) & _) & _) & _); auto).
          unfold cell_do, cellof in SL. rewrite ES in SL. cbn [cl_agg] in SL. rewrite PU in SL. unfold g_call_pusher, pusher_live in SL. cbn [pu_id pu_handler andb] in SL. rewrite ID in SL.
          destruct (g_call ne (GoPush x hh c1 c2) g) as [[out g']| |] eqn:EC; cbn [bind] in SL; try discriminate.
          unfold cell_set in SL. cbn [cl_enabled cl_init] in SL. injection SL as <- SL _ _. destruct (slot o r' n) as [[[id' s'] g1]|] eqn:ES'; [|discriminate]. injection SL as <-.
          unfold aggof. rewrite ES'.
          apply (call2_cell ne Hne ao Hs st mo (GoPush x hh c1 c2) g S G T out g'); auto; try exact Logic.I.
          { split; auto. } { intros HST. split; [exact Logic.I|]. split; simpl; auto. }
        * unfold aggof in *. rewrite ES in HC. rewrite SL. destruct (name_eqb_spec m n) as [->|NM].
          -- destruct (st) eqn:HST; [exfalso; destruct (P5 eq_refl eq_refl) as [i H]; unfold SystemProofs.objof in H; rewrite ES in H; congruence|].
             assert (recs = []) as ->.
             { apply DEAD. intros n0 id0 s0 g0 H0 ->. destruct (P4 n0 id0) as [-> _]; [unfold SystemProofs.objof; now rewrite H0|]. congruence. }
             rewrite app_nil_r. apply (gone2_inv ne ao); auto. apply (later2_cell ne ao Hs _ mo) with (T := T); [congruence|]. exact HC.
          -- rewrite !app_nil_r. apply (later2_cell ne ao Hs _ mo) with (T := T); auto.
      + unfold aggof in *. rewrite ES in HC. rewrite SL. destruct (name_eqb_spec m n) as [->|NM].
        * destruct (st) eqn:HST; [exfalso; destruct (P5 eq_refl eq_refl) as [i H]; unfold SystemProofs.objof in H; rewrite ES in H; congruence|].
          assert (recs = []) as ->.
          { apply DEAD. intros n0 id0 s0 g0 H0 ->. destruct (P4 n0 id0) as [-> _]; [unfold SystemProofs.objof; now rewrite H0|]. congruence. }
          rewrite app_nil_r. apply (gone2_inv ne ao); auto. apply (later2_cell ne ao Hs _ mo) with (T := T); [congruence|]. exact HC.
        * rewrite !app_nil_r. apply (later2_cell ne ao Hs _ mo) with (T := T); auto.
    - destruct d as [i|m0].
      + destruct recs as [|a recs]; auto. right. right. exists i. split; auto.
        unfold rg_call_pusher in E. destruct (find_obj (rp_obj p) (rg_arr r)) as [[pos g]|] eqn:EF; [|discriminate].
        apply find_obj_some in EF. destruct (live_slot o k r (rp_obj p) I) as (m' & i' & g0 & S0); [exists pos, g; auto|].
        assert (OB : objof r m' = Some (i', rp_obj p)) by (unfold SystemProofs.objof; now rewrite S0).
        destruct (P4 m' i' OB) as [-> [X|X]]; [discriminate|]. injection X as ->.
        destruct (obj_named o k r m i' (rp_obj p) I OB) as [GN _]. unfold rg_get_name in *. now rewrite ED.
      + destruct recs as [|a recs]; auto. right. left.
        unfold rg_call_pusher in E. destruct (find_obj (rp_obj p) (rg_arr r)) as [[pos g]|] eqn:EF; [|discriminate].
        apply find_obj_some in EF. destruct (live_slot o k r (rp_obj p) I) as (m' & i' & g0 & S0); [exists pos, g; auto|].
        assert (OB : objof r m' = Some (i', rp_obj p)) by (unfold SystemProofs.objof; now rewrite S0).
        destruct (P4 m' i' OB) as [-> [X|X]]; [auto|discriminate].
  Qed.

  (** *** Meters *)
  Definition fun_ok (r : registry) (f : mfun) (m : (role -> name) * bool) : Prop :=
    match f with
    | FOne p id => pusher_ok r p (DId id) (fst m RoTime) /\ fst m RoRead = [] /\ fst m RoWrite = []
    | FComp p to => cp_sum p = snd m /\
        forall k, match cp_role k p with None => fst m k = [] | Some q => pusher_ok r q (to k) (fst m k) end
    end.
  Lemma fun_ev r r' f m : ev r r' -> fun_ok r f m -> fun_ok r' f m.
  Proof.
    intros E. destruct f as [p id|p to]; simpl.
    - intros (H & H1 & H2). split; auto. eapply pusher_ev; eauto.
    - intros (H & H1). split; auto. intros k. specialize (H1 k). destruct (cp_role k p); auto. eapply pusher_ev; eauto.
  Qed.
  Lemma funs_ev r r' fs tbl : ev r r' -> Forall2 (fun_ok r) fs tbl -> Forall2 (fun_ok r') fs tbl.
  Proof. intros E H. eapply Forall2_impl; [|exact H]. intros f m. now apply fun_ev. Qed.

  Definition handed (e : list yev) : Prop := Forall (fun x => match x with LHandler _ _ => True | _ => False end) e.
  Lemma handed_meters e : handed e -> meters e = [].
  Proof. induction 1 as [|x l H _ IH]; auto. destruct x; try contradiction. exact IH. Qed.
  Lemma handed_samples e tbl : handed e -> samples n tbl e = [].
  Proof. intros H. revert tbl. induction H as [|x l H _ IH]; intros tbl; auto. destruct x; try contradiction. simpl. apply IH. Qed.
  Lemma meters_app a b : meters (a ++ b) = meters a ++ meters b.
  Proof. apply flat_map_app. Qed.
  Lemma samples_app tbl a b : samples n tbl (a ++ b) = samples n tbl a ++ samples n (tbl ++ meters a) b.
  Proof.
    revert tbl. induction a as [|e a IH]; intros tbl; [simpl; now rewrite app_nil_r|].
    cbn [app]. change (e :: a) with ([e] ++ a). rewrite meters_app. cbn [samples app]. rewrite IH, <- !app_assoc. reflexivity.
  Qed.
  Lemma got_app a b : got n (a ++ b) = got n a ++ got n b.
  Proof. apply flat_map_app. Qed.
  Lemma got_handler m l : got n (map (LHandler m) l) = if name_eqb m n then l else [].
  Proof. induction l as [|a l IH]; [simpl; now destruct (name_eqb m n)|]. cbn [map]. change (got n (LHandler m a :: map (LHandler m) l)) with ((if name_eqb m n then [a] else []) ++ got n (map (LHandler m) l)). rewrite IH. now destruct (name_eqb m n). Qed.
  Lemma handed_map {A} (f : A -> name * adata) l : handed (map (fun q => LHandler (fst (f q)) (snd (f q))) l).
  Proof. apply Forall_forall. intros x H. apply in_map_iff in H as (y & <- & _). exact Logic.I. Qed.

  Definition same_but (s s' : sys) : Prop :=
    y_alive s' = y_alive s /\ y_funs s' = y_funs s /\ y_pts s' = y_pts s /\ w_handler (y_wrt s') = w_handler (y_wrt s).
  Lemma same_trans a b c : same_but a b -> same_but b c -> same_but a c.
  Proof. intros (A1 & A2 & A3 & A4) (B1 & B2 & B3 & B4). unfold same_but. repeat split; congruence. Qed.

  Definition role_ok (r : registry) (p : option rpusher) (d : dest) (m : name) : Prop :=
    match p with None => m = [] | Some q => pusher_ok r q d m end.
  Lemma call_ok k s S G T p d m x cl e s' : y_alive s = true -> Reg k (y_reg s) S G T -> role_ok (y_reg s) p d m ->
    y_call ne p d x cl s = Ok (e, s') -> op_typed (sm_op x) -> match x with SmList _ _ => False | _ => True end ->
    (st = true -> T <= given_time res (fst cl) (sm_ts x)) ->
    Reg k (y_reg s') (S ++ if name_eqb m n then [x] else []) (G ++ got n e) (given_time res (fst cl) (sm_ts x)) /\
    ev (y_reg s) (y_reg s') /\ same_but s s' /\ handed e.
  Proof.
    intros A R P E HT HL HK. unfold y_call in E. destruct p as [q|]; simpl rg_call_opt in E.
    - destruct (rg_call_pusher ne q x (fst cl) (snd cl) (y_reg s)) as [[recs r]| |] eqn:EP; cbn [bind] in E; try discriminate.
      destruct (y_deliver d recs (y_set_reg r s)) as [e1| |] eqn:ED; cbn [bind] in E; try discriminate. injection E as <- <-.
      destruct (R_push k (y_reg s) S G T q d m x _ _ recs r R P EP HT HL HK) as (R1 & EV & HD).
      assert (GE : got n e1 = (if name_eqb m n then recs else []) /\ handed e1).
      { unfold y_deliver in ED. destruct recs as [|a recs]; [injection ED as <-; split; [now destruct (name_eqb m n)|constructor]|].
        destruct HD as [X|[->|(i & -> & GN)]]; [discriminate|..].
        - injection ED as <-. split; [apply (got_handler m (a :: recs))|exact (handed_map (fun a => (m, a)) (a :: recs))].
        - cbn [y_alive y_set_reg] in ED. rewrite A in ED. unfold w_deliver in ED. change (y_reg (y_set_reg r s)) with r in ED. rewrite GN in ED.
          destruct P as (_ & P2 & _). destruct m as [|z m]; [congruence|]. injection ED as <-. rewrite !map_map. split; [|constructor; [exact Logic.I|apply (handed_map (fun a => (z :: m, a)))]].
          exact (got_handler (z :: m) (a :: recs)). }
      destruct GE as [GE HD1]. rewrite GE. split; [exact R1|]. split; [exact EV|]. split; auto. unfold same_but. auto.
    - cbn [bind y_deliver] in E. injection E as <- <-. simpl in P. subst m. destruct (name_eqb_spec [] n); [congruence|].
      rewrite !app_nil_r. destruct R as (I & Hk & HI & HE & HC). split; [|split; [apply ev_refl|split; [unfold same_but; auto|constructor]]].
      split; auto. split; auto. split; auto. split; auto. apply (later2_cell ne ao Hs _ mo) with (T := T); auto.
  Qed.
  Lemma to_i64_range z : i64 (to_i64 z).
  Proof.
    unfold to_i64, i64, i64_min, i64_max, u64. pose proof (Z.mod_pos_bound z two64 ltac:(unfold two64; lia)).
    destruct (Z.ltb_spec (z mod two64) (2 ^ 63)); unfold two64 in *; lia.
  Qed.
  Lemma typed_add v c : i64 v -> is_u64 c -> op_typed (OpAdd v c).
  Proof. intros A B. split; auto. unfold op_extremes. rewrite app_nil_r. simpl. try destruct (c =? 0); repeat constructor; auto; apply A. Qed.

  Definition rtimes (now : Z) (cl : role -> Z * Z) : list Z := map (fun k => given_time res (fst (cl k)) now) [RoTime; RoRead; RoWrite].
  Lemma report_ok k s S G T tbl rp cl e s' : y_alive s = true -> Reg k (y_reg s) S G T -> Forall2 (fun_ok (y_reg s)) (y_funs s) tbl ->
    y_report ne rp cl s = Ok (e, s') -> ev_typed (LPoint (EvReport rp)) -> (st = true -> forward T (rtimes (rp_now rp) cl)) ->
    Reg k (y_reg s') (S ++ samples n tbl [LPoint (EvReport rp)]) (G ++ got n e) (last (rtimes (rp_now rp) cl) T) /\
    ev (y_reg s) (y_reg s') /\ same_but s s' /\ handed e.
  Proof.
    intros A R FS E HT HK. unfold y_report in E. destruct (nth_error (y_funs s) (rp_fun rp)) as [f|] eqn:EF; [|destruct (rp_sizes rp); discriminate].
    destruct (Forall2_nth_l _ _ _ FS _ _ EF) as (m & EM & FO). cbn [samples]. rewrite EM, app_nil_r. unfold measured_at. simpl in HT. destruct HT as [HT1 HT2].
    destruct f as [p id|p to], (rp_sizes rp) as [[rd wr]|]; try discriminate.
    - destruct FO as (P & _ & _). rewrite app_nil_r.
      destruct (call_ok k s S G T (Some p) (DId id) (fst m RoTime) _ _ _ _ A R P E HT1 Logic.I) as (R1 & EV & SB & HD).
      { intros HST. destruct (HK HST) as [K _]. exact K. }
      split; auto. destruct R1 as (I & Hk & HI & HE & HC). split; auto. split; auto. split; auto. split; auto. simpl sm_op in HC.
      apply (later2_cell ne ao Hs _ mo) with (T := given_time res (fst (cl RoTime)) (rp_now rp)); auto.
      intros HST. destruct (HK HST) as (_ & K1 & K2 & _). unfold rtimes. simpl. lia.
    - destruct FO as (HSUM & FO). rewrite HSUM in E.
      destruct (y_call ne (cp_time p) _ _ _ s) as [[e1 s1]| |] eqn:E1; cbn [bind] in E; try discriminate.
      destruct (y_call ne (cp_read p) _ _ _ s1) as [[e2 s2]| |] eqn:E2; cbn [bind] in E; try discriminate.
      destruct (y_call ne (cp_write p) _ _ _ s2) as [[e3 s3]| |] eqn:E3; cbn [bind] in E; try discriminate. injection E as <- <-.
      destruct HT2 as [HT2 HT3].
      pose proof (FO RoTime) as F1. pose proof (FO RoRead) as F2. pose proof (FO RoWrite) as F3. simpl in F1, F2, F3.
      destruct (call_ok k s S G T (cp_time p) (to RoTime) (fst m RoTime) _ _ _ _ A R F1 E1) as (R1 & V1 & B1 & D1); auto.
      { intros HST. destruct (HK HST) as (K & _). exact K. }
      assert (A1 : y_alive s1 = true) by (destruct B1 as [-> _]; auto).
      assert (F2' : role_ok (y_reg s1) (cp_read p) (to RoRead) (fst m RoRead)) by (unfold role_ok; destruct (cp_read p); auto; eapply pusher_ev; eauto).
      destruct (call_ok k s1 _ _ _ (cp_read p) (to RoRead) (fst m RoRead) _ _ _ _ A1 R1 F2' E2) as (R2 & V2 & B2 & D2); auto.
      { apply typed_add; [apply to_i64_range|]. destruct (snd m); auto. apply HT1. }
      { intros HST. destruct (HK HST) as (_ & K & _). exact K. }
      assert (A2 : y_alive s2 = true) by (destruct B2 as [-> _]; auto).
      assert (F3' : role_ok (y_reg s2) (cp_write p) (to RoWrite) (fst m RoWrite)) by (unfold role_ok; destruct (cp_write p); auto; eapply pusher_ev; [|eapply pusher_ev]; eauto).
      destruct (call_ok k s2 _ _ _ (cp_write p) (to RoWrite) (fst m RoWrite) _ _ _ _ A2 R2 F3' E3) as (R3 & V3 & B3 & D3); auto.
      { apply typed_add; [apply to_i64_range|]. destruct (snd m); auto. apply HT1. }
      { intros HST. destruct (HK HST) as (_ & _ & K & _). exact K. }
      split; [|split; [eapply ev_trans; [|eapply ev_trans]; eauto|split; [eapply same_trans; [|eapply same_trans]; eauto|]]].
      + rewrite !got_app. rewrite <- !app_assoc in R3. rewrite <- ?app_assoc. exact R3.
      + apply Forall_app. split; auto. apply Forall_app. auto.
  Qed.

  (** *** The whole program *)
  Definition SysOk (k : nat) (s : sys) (tbl : mtable) (S : list sample) (G : list adata) (T : Z) : Prop :=
    w_handler (y_wrt s) = hh /\
    if y_alive s then Reg k (y_reg s) S G T /\ Forall2 (fun_ok (y_reg s)) (y_funs s) tbl
    else st = false /\ rg_arr (y_reg s) = [] /\ cell2_inv ne ao st mo None S G T.
  Lemma sys_later k s tbl S G T T' : (st = true -> T <= T') -> SysOk k s tbl S G T -> SysOk k s tbl S G T'.
  Proof.
    intros HT (H1 & H2). split; auto. destruct (y_alive s).
    - destruct H2 as ((I & Hk & HI & HE & HC) & H3). split; auto. split; auto. split; auto. split; auto. split; auto.
      apply (later2_cell ne ao Hs _ mo) with (T := T); auto.
    - destruct H2 as (H2 & H3 & H4). split; auto. split; auto. apply (later2_cell ne ao Hs _ mo) with (T := T); auto.
  Qed.
  Lemma sys_pts k s tbl S G T pts : SysOk k s tbl S G T -> SysOk k (mk_sys (y_wrt s) (y_alive s) (y_funs s) pts) tbl S G T.
  Proof. exact (fun H => H). Qed.

  Lemma dead_call p d x cl s e s' : rg_arr (y_reg s) = [] -> y_call ne p d x cl s = Ok (e, s') -> e = [] /\ s' = s.
  Proof.
    intros A E. assert (X : rg_call_opt ne p x (fst cl) (snd cl) (y_reg s) = Ok ([], y_reg s)).
    { destruct p; auto. simpl. unfold rg_call_pusher. now rewrite A. }
    unfold y_call in E. rewrite X in E. cbn [bind y_deliver] in E. injection E as <- <-. split; auto.
    destruct s as [[r h] al fs ps]. reflexivity.
  Qed.
  Lemma dead_report rp cl s e s' : rg_arr (y_reg s) = [] -> y_report ne rp cl s = Ok (e, s') -> e = [] /\ s' = s.
  Proof.
    intros A E. unfold y_report in E. destruct (nth_error (y_funs s) (rp_fun rp)) as [[p id|p to]|], (rp_sizes rp) as [[rd wr]|]; try discriminate.
    - eapply dead_call; eauto.
    - destruct (y_call ne (cp_time p) _ _ _ s) as [[e1 s1]| |] eqn:E1; cbn [bind] in E; try discriminate. apply dead_call in E1 as [-> ->]; auto.
      destruct (y_call ne (cp_read p) _ _ _ s) as [[e1 s1]| |] eqn:E1; cbn [bind] in E; try discriminate. apply dead_call in E1 as [-> ->]; auto.
      destruct (y_call ne (cp_write p) _ _ _ s) as [[e1 s1]| |] eqn:E1; cbn [bind] in E; try discriminate. apply dead_call in E1 as [-> ->]; auto.
      injection E as <- <-. auto.
  Qed.

  Lemma sys_report k s tbl S G T rp cl e s' : SysOk k s tbl S G T -> y_report ne rp cl s = Ok (e, s') -> ev_typed (LPoint (EvReport rp)) ->
    (st = true -> forward T (rtimes (rp_now rp) cl)) ->
    SysOk k s' tbl (S ++ samples n tbl [LPoint (EvReport rp)]) (G ++ got n e) (last (rtimes (rp_now rp) cl) T) /\ handed e.
  Proof.
    intros (H1 & H2) E HT HK. unfold SysOk. destruct (y_alive s) eqn:EA.
    - destruct H2 as (R & FS). destruct (report_ok k s S G T tbl rp cl e s' EA R FS E HT HK) as (R' & EV & (B1 & B2 & B3 & B4) & HD).
      split; auto. split; [congruence|]. rewrite B1, EA, B2. split; auto. eapply funs_ev; eauto.
    - destruct H2 as (H2 & H3 & H4). apply dead_report in E as [-> ->]; auto. simpl got. rewrite app_nil_r, EA. split; [|constructor].
      split; auto. split; auto. split; auto. apply (gone2_inv ne ao); auto. apply (later2_cell ne ao Hs _ mo) with (T := T); [congruence|]. exact H4.
  Qed.

  Definition is_report (e : mevent) : bool := match e with EvReport _ => true | _ => false end.
  Lemma quiet_events es cl s e s' : existsb is_report es = false -> y_events ne es cl s = Ok (e, s') ->
    s' = s /\ meters e = [] /\ got n e = [] /\ forall tbl, samples n tbl e = [].
  Proof.
    revert e s'. induction es as [|x es IH]; intros e s' H E; simpl in E.
    - injection E as <- <-. auto.
    - simpl in H. apply orb_false_iff in H as [H0 H].
      assert (E' : (' (ev2, s2) <- y_events ne es cl s;; Ok (LPoint x :: [] ++ ev2, s2)) = Ok (e, s')) by (destruct x; auto; discriminate). clear E.
      destruct (y_events ne es cl s) as [[ev2 s2]| |]; cbn [bind] in E'; try discriminate. injection E' as <- <-.
      destruct (IH _ _ H eq_refl) as (-> & A & B & C). split; auto. split; auto. split; auto. intros tbl. cbn [app samples]. rewrite C. destruct x; auto. discriminate.
  Qed.
  (** at most one report, and at the time given *)
  Lemma do_reports op pts : match fst (m_do op pts) with
    | [] => True
    | e :: t => existsb is_report t = false /\ match e with EvReport r => mop_now op = Some (rp_now r) | _ => True end
    end.
  Proof.
    assert (P : forall now clk p, fst (p_push now clk p) = [] \/ exists r, fst (p_push now clk p) = [r] /\ rp_now r = now).
    { intros. unfold p_push. destruct (p_fun p); [|simpl; auto]. right. destruct (p_kind p); simpl; eauto. }
    assert (Q : forall f, existsb is_report (starts f) = false) by (intros [|]; auto).
    destruct op; simpl.
    - destruct f; simpl; auto.
    - destruct (m_get i pts); simpl; auto.
    - destruct (m_get i pts) as [p|]; simpl; auto. destruct (P now clk p) as [->|(r & -> & <-)]; simpl; auto.
    - destruct (m_get i pts); simpl; auto.
    - destruct (m_get i pts) as [p|]; simpl; auto. unfold p_reset_fun. simpl. destruct (P now clk p) as [->|(r & -> & <-)]; simpl; auto. destruct f; simpl; auto.
    - destruct (m_get i pts) as [p|]; simpl; auto. destruct (p_fun p); simpl; auto.
    - destruct (m_get i pts); simpl; auto.
    - destruct (m_get i pts) as [p|]; simpl; auto. destruct (m_get j pts); simpl; auto. destruct (Nat.eqb i j); simpl; auto. destruct (p_fun p); simpl; auto.
    - destruct (m_get i pts) as [p|]; simpl; auto. destruct (P now clk p) as [->|(r & -> & <-)]; simpl; auto.
  Qed.
  Lemma sys_point k s tbl S G T op cl e s' : SysOk k s tbl S G T -> y_do ne (YPt op cl) s = Ok (e, s') -> Forall ev_typed e ->
    (st = true -> forward T (times o n (YPt op cl))) ->
    SysOk k s' (tbl ++ meters e) (S ++ samples n tbl e) (G ++ got n e) (last (times o n (YPt op cl)) T).
  Proof.
    intros H E HT HK. cbn [y_do] in E. destruct (y_typed op s).
    2: { injection E as <- <-. simpl meters. simpl samples. simpl got. rewrite !app_nil_r. apply sys_later with (T := T); auto. intros. apply last_forward; auto. }
    pose proof (do_reports op (y_pts s)) as DR. destruct (m_do op (y_pts s)) as [es pts]. simpl in DR.
    apply (sys_pts _ _ _ _ _ _ pts) in H. set (s0 := mk_sys _ _ _ pts) in *.
    assert (QUIET : existsb is_report es = false -> SysOk k s' (tbl ++ meters e) (S ++ samples n tbl e) (G ++ got n e) (last (times o n (YPt op cl)) T)).
    { intros Q. destruct (quiet_events _ _ _ _ _ Q E) as (-> & A & B & C). rewrite A, B, C, !app_nil_r. apply sys_later with (T := T); auto. intros. apply last_forward; auto. }
    destruct es as [|x es]; [auto|]. destruct DR as [DR NOW]. destruct x as [f|rp|f]; auto. clear QUIET.
    cbn [y_events] in E. destruct (y_report ne rp cl s0) as [[e1 s1]| |] eqn:E1; cbn [bind] in E; try discriminate.
    destruct (y_events ne es cl s1) as [[e2 s2]| |] eqn:E2; cbn [bind] in E; try discriminate. injection E as <- <-.
    destruct (quiet_events _ _ _ _ _ DR E2) as (-> & A & B & C). inversion HT as [|? ? HT1 _]; subst.
    unfold times in *. rewrite NOW in *.
    destruct (sys_report k s0 tbl S G T rp cl e1 s1 H E1 HT1 HK) as (H1 & HD).
    change (LPoint (EvReport rp) :: e1 ++ e2) with ([LPoint (EvReport rp)] ++ e1 ++ e2).
    rewrite !meters_app, !samples_app, !got_app, A, B, C, (handed_meters _ HD), (handed_samples _ _ HD). simpl (meters [_]). simpl (got n [_]). rewrite !app_nil_r. exact H1.
  Qed.

  (** Creating names *)
  Lemma roles_ok order e nm now : forall k r S G T ids r', Reg k r S G T -> (k + length order <= N)%nat -> create_roles ne order e nm now r = Ok (ids, r') ->
    let ts := flat_map (fun k => if name_eqb (nm k) n then [given_time res (ce_clock (e k)) now] else []) order in
    (st = true -> forward T ts) ->
    exists k', (k' <= k + length order)%nat /\ Reg k' r' S G (last ts T) /\ ev r r' /\
      (forall m' i s, objof r m' = Some (i, s) -> objof r' m' = Some (i, s)) /\
      forall x, (ids x = bad_id /\ (In x order -> nm x = [])) \/ (nm x <> [] /\ exists s, objof r' (nm x) = Some (ids x, s)).
  Proof.
    induction order as [|x order IH]; intros k r S G T ids r' R HN E ts HK.
    - injection E as <- <-. exists k. split; [simpl; lia|]. split; auto. split; [apply ev_refl|]. split; auto. intros x. left. split; [reflexivity|intros []].
    - cbn [create_roles] in E. destruct (rg_create ne (e x) (nm x) now r) as [[id r1]| |] eqn:E1; cbn [bind] in E; try discriminate.
      destruct (create_roles ne order e nm now r1) as [[ids1 r2]| |] eqn:E2; cbn [bind] in E; try discriminate. injection E as <- <-.
      unfold ts in *. cbn [flat_map] in *. clear ts. simpl in HN.
      assert (HK1 := fun h => proj1 (proj1 (forward_app _ _ _) (HK h))). assert (HK2 := fun h => proj2 (proj1 (forward_app _ _ _) (HK h))).
      destruct (R_create ne Hne o N F Hs st mo n Hn k r S G T (e x) (nm x) now id r1 R ltac:(lia) E1 HK1) as (k1 & L1 & R1 & V1 & K1 & B1 & O1).
      destruct (IH k1 r1 S G _ ids1 r2 R1 ltac:(lia) E2 HK2) as (k2 & L2 & R2 & V2 & K2 & O2).
      exists k2. split; [simpl; lia|]. rewrite last_app. split; auto. split; [eapply ev_trans; eauto|]. split; auto.
      intros y. destruct (role_eqb y x) eqn:EX.
      + assert (y = x) as -> by (destruct x, y; simpl in EX; congruence).
        destruct (list_eq_dec ascii_dec (nm x) []) as [NX|NX]; auto. right. split; auto. destruct (O1 NX) as [s0 H0]. eauto.
      + destruct (O2 y) as [[O3 O4]|O3]; [left|right; exact O3]. split; [exact O3|]. intros [->|HX]; [|auto]. destruct y; discriminate.
  Qed.

  Lemma sys_fun k s tbl S G T f m : SysOk k s tbl S G T -> y_alive s = true -> fun_ok (y_reg s) f m ->
    SysOk k (y_add_fun f s) (tbl ++ [m]) S G T.
  Proof. intros (H1 & H2) A FO. split; auto. cbn [y_add_fun y_alive]. rewrite A in *. destruct H2 as [R FS]. split; auto. apply Forall2_app; auto. Qed.
  Lemma sys_reg k k' s tbl S G T r' S' G' T' : SysOk k s tbl S G T -> y_alive s = true -> Reg k' r' S' G' T' -> ev (y_reg s) r' ->
    SysOk k' (y_set_reg r' s) tbl S' G' T'.
  Proof.
    intros (H1 & H2) A R EV. split; auto. cbn [y_set_reg y_alive]. rewrite A in *. destruct H2 as [_ FS]. split; auto.
    eapply funs_ev; eauto.
  Qed.
  Lemma sys_alive k s tbl S G T : SysOk k s tbl S G T -> y_alive s = true -> w_handler (y_wrt s) = hh /\ Reg k (y_reg s) S G T.
  Proof. intros (H1 & H2) A. rewrite A in H2. tauto. Qed.
  Lemma y_has_hh id s : w_handler (y_wrt s) = hh -> id <> bad_id -> y_has id s = hh.
  Proof. intros H NB. unfold y_has. destruct (Z.eqb_spec id bad_id); [contradiction|]. exact H. Qed.

  (** a meter by number; [m]: the name of the number *)
  Lemma sys_meter_id k s tbl S G T id e s' : SysOk k s tbl S G T -> y_alive s = true -> y_meter_id id s = Ok (e, s') ->
    (id = bad_id \/ id_use o id \/ exists m sn, objof (y_reg s) m = Some (id, sn)) ->
    SysOk k s' (tbl ++ meters e) S G T /\ got n e = [] /\ forall tbl, samples n tbl e = [].
  Proof.
    intros H A E CL. destruct (sys_alive _ _ _ _ _ _ H A) as [HW R]. unfold y_meter_id in E.
    destruct (rg_pusher id (y_has id s) (y_reg s)) as [[p|]| |] eqn:EP; cbn [bind] in E; try discriminate.
    - injection E as <- <-. split; [|split; auto]. apply sys_fun; auto. simpl. split; auto.
      destruct (Z.eq_dec id bad_id) as [->|NB]; [rewrite bad_pusher in EP; discriminate|].
      rewrite (y_has_hh id s HW NB) in EP. destruct CL as [CL|[CL|(m & sn & CL)]]; [contradiction|..].
      + exact (pusher_by_id k (y_reg s) S G T id hh (Some p) R CL (fun _ => eq_refl) EP).
      + destruct (pusher_new k (y_reg s) S G T m id sn (Some p) R CL EP) as (_ & p' & X & P). injection X as <-.
        destruct R as (I & _). destruct (obj_named o k _ m id sn I CL) as [-> _]. auto.
    - injection E as <- <-. simpl meters. rewrite app_nil_r. split; auto.
  Qed.

  Lemma sys_composite k s tbl S G T (ids : role -> Z) (h : role -> bool) nm to sum q : SysOk k s tbl S G T -> y_alive s = true ->
    rg_composite (ids RoTime) (ids RoRead) (ids RoWrite) (h RoTime) (h RoRead) (h RoWrite) sum (y_reg s) = Ok q ->
    (forall x p, rg_pusher (ids x) (h x) (y_reg s) = Ok (Some p) -> pusher_ok (y_reg s) p (to x) (nm x)) ->
    match q with None => True | Some p => SysOk k (y_add_fun (FComp p to) s) (tbl ++ [(named_by p nm, sum)]) S G T end.
  Proof.
    intros H A E HP. unfold rg_composite in E.
    destruct (rg_pusher (ids RoTime) (h RoTime) (y_reg s)) as [t| |] eqn:E1; cbn [bind] in E; try discriminate.
    destruct (rg_pusher (ids RoRead) (h RoRead) (y_reg s)) as [rd| |] eqn:E2; cbn [bind] in E; try discriminate.
    destruct (rg_pusher (ids RoWrite) (h RoWrite) (y_reg s)) as [w| |] eqn:E3; cbn [bind] in E; try discriminate.
    destruct q as [p|]; auto. assert (p = mk_cpusher t rd w sum) as -> by (destruct t, rd, w; congruence). clear E.
    apply sys_fun; auto. split; auto. intros x. unfold fst, named_by.
    destruct x; simpl; [destruct t|destruct rd|destruct w]; auto.
  Qed.

  Hypothesis Hms : mo = true -> st = true.
  Lemma sys_do k s tbl S G T op e s' : SysOk k s tbl S G T -> y_do ne op s = Ok (e, s') -> y_public o op -> Forall ev_typed e ->
    (k + creations op <= N)%nat -> (st = true -> kept n op /\ forward T (times o n op)) -> (mo = true -> metered op) ->
    exists k', (k' <= k + creations op)%nat /\ SysOk k' s' (tbl ++ meters e) (S ++ samples n tbl e) (G ++ got n e) (last (times o n op) T).
  Proof.
    intros H E HP HT HN HK HM.
    destruct (match op with YPt _ _ => true | _ => false end) eqn:EPT.
    { destruct op; try discriminate. exists k. split; [lia|]. eapply sys_point; eauto. intros HST. apply HK; auto. }
    assert (A : y_alive s = true). { destruct op; try discriminate; cbn [y_do] in E; destruct (y_alive s); simpl in E; congruence. }
    destruct (sys_alive _ _ _ _ _ _ H A) as [HW R]. pose proof R as (I & Hk & HI & HE & HC).
    destruct op as [id|en m now|id sum|order en m sum now|op0 cl|g|force clk|clk]; try discriminate;
      cbn [y_do] in E; rewrite A in E; cbn [negb] in E; cbn [creations] in HN.
    - (* YMeterId *)
      exists k. split; [lia|]. destruct (sys_meter_id k s tbl S G T id e s' H A E) as (H' & G' & S'); [right; left; exact HP|].
      rewrite G', S', !app_nil_r. exact H'.
    - (* YMeterName *)
      unfold y_meter_name in E. destruct (rg_create ne en m now (y_reg s)) as [[id r]| |] eqn:EC; cbn [bind] in E; try discriminate.
      destruct (R_create ne Hne o N F Hs st mo n Hn k _ S G T en m now id r R ltac:(lia) EC (fun h => proj2 (HK h))) as (k1 & L1 & R1 & V1 & K1 & B1 & O1).
      exists k1. split; [cbn [creations]; lia|]. pose proof (sys_reg k k1 s tbl S G T r S G _ H A R1 V1) as H1.
      destruct (sys_meter_id k1 (y_set_reg r s) tbl S G _ id e s' H1 A E) as (H' & G' & S').
      { destruct (list_eq_dec ascii_dec m []) as [NM|NM]; [left; auto|]. right. right. exists m. apply O1. auto. }
      rewrite G', S', !app_nil_r. exact H'.
    - (* YCompId *)
      exists k. split; [lia|]. unfold y_comp_id in E.
      destruct (rg_composite _ _ _ _ _ _ sum (y_reg s)) as [q| |] eqn:EC; cbn [bind] in E; try discriminate.
      pose proof (sys_composite k s tbl S G T id (fun x => y_has (id x) s) (fun x => rg_get_name (id x) (y_reg s)) (fun x => DId (id x)) sum q H A EC) as SC.
      assert (X : match q with None => True | Some p => SysOk k (y_add_fun (FComp p (fun x => DId (id x))) s) (tbl ++ [(named_by p (fun x => rg_get_name (id x) (y_reg s)), sum)]) S G T end).
      { apply SC. intros x p EP. exact (pusher_by_id k (y_reg s) S G T (id x) (y_has (id x) s) (Some p) R (HP x) (y_has_hh (id x) s HW) EP). }
      clear SC. destruct q as [p|]; injection E as <- <-; cbn [meters flat_map app samples got got_ev times last]; rewrite ?app_nil_r; auto.
    - (* YCompName *)
      unfold y_comp_name, rg_composite_name in E. destruct (create_roles ne order en m now (y_reg s)) as [[ids r]| |] eqn:EC; cbn [bind] in E; try discriminate.
      destruct (rg_composite (ids RoTime) (ids RoRead) (ids RoWrite) _ _ _ sum r) as [q| |] eqn:EQ; cbn [bind] in E; try discriminate.
      destruct (roles_ok order en m now k _ S G T ids r R HN EC (fun h => proj2 (HK h))) as (k1 & L1 & R1 & V1 & K1 & O1).
      exists k1. split; [cbn [creations]; lia|]. pose proof (sys_reg k k1 s tbl S G T r S G _ H A R1 V1) as H1.
      pose proof (sys_composite k1 (y_set_reg r s) tbl S G _ ids (fun _ => w_handler (y_wrt s)) m (fun x => DName (m x)) sum q H1 A EQ) as SC.
      match type of SC with _ -> ?X => assert (XX : X) end.
      { apply SC. intros x p EP. change (y_reg (y_set_reg r s)) with r in *. rewrite HW in EP. destruct (O1 x) as [[OB _]|(NX & sn & OB)].
        - rewrite OB, bad_pusher in EP. discriminate.
        - destruct (pusher_new k1 r S G _ (m x) (ids x) sn (Some p) R1 OB EP) as (_ & p' & X & P). injection X as <-. auto. }
      clear SC. destruct q as [p|]; injection E as <- <-; cbn [meters flat_map app samples got got_ev]; rewrite ?app_nil_r; auto.
    - (* YReg *)
      destruct (rg_do ne g (y_reg s)) as [[out r]| |] eqn:EG; cbn [bind] in E; try discriminate. injection E as <- <-.
      assert (MT : meters [LAnswer (about g (y_reg s)) g out] = []) by reflexivity. rewrite MT, app_nil_r.
      destruct g as [en m now|id op|en m d c1 c2|force clk|v|v|m|id|id h|en m h now|p x c1 c2]; simpl in HP; try contradiction; cbn [rg_do] in EG.
      + destruct (rg_create ne en m now (y_reg s)) as [[id r1]| |] eqn:EC; cbn [bind] in EG; try discriminate. injection EG as <- <-.
        destruct (R_create ne Hne o N F Hs st mo n Hn k _ S G T en m now id r1 R ltac:(lia) EC (fun h => proj2 (HK h))) as (k1 & L1 & R1 & V1 & _).
        exists k1. split; [cbn [creations]; lia|]. cbn [samples got flat_map got_ev app]. rewrite !app_nil_r. eapply sys_reg; eauto.
      + destruct (rg_call ne id op (y_reg s)) as [[so r1]| |] eqn:EC; cbn [bind] in EG; try discriminate. injection EG as <- <-.
        assert (U : id_use o id) by (destruct op; try destruct x; tauto).
        inversion HT as [|? ? HT1 _]; subst. simpl in HT1.
        destruct (R_call ne Hne o N F Hs st mo n Hn k _ S G T id op so r1 R EC (clean_id o N k _ id F Hk I U)) as (R1 & V1).
        { destruct op; simpl; auto. split; auto. destruct x; auto; contradiction. contradiction. }
        { destruct op; try destruct x; simpl; tauto. }
        { intros HST _. destruct (HK HST) as (K1 & K2). split; [destruct op; simpl; auto; contradiction|].
          destruct op; try destruct x; simpl in *; tauto. }
        { intros HMO. specialize (HM HMO). simpl in HM. destruct op; auto; contradiction. }
        exists k. split; [lia|]. apply sys_later with (T := if name_eqb (rg_get_name id (y_reg s)) n then last (op_times (rgo_agg o) op) T else T).
        { intros HST. destruct (HK HST) as [_ K2]. destruct op; try contradiction; try destruct x; try contradiction; simpl in *; destruct (name_eqb _ n); lia. }
        assert (ES : S ++ samples n tbl [LAnswer (about (RgCall id op) (y_reg s)) (RgCall id op) (RCall so)] = if name_eqb (rg_get_name id (y_reg s)) n then S ++ op_smp op else S).
        { cbn [samples about]. destruct op; try contradiction; destruct (name_eqb _ n); simpl; rewrite ?app_nil_r; auto. }
        assert (EGT : G ++ got n [LAnswer (about (RgCall id op) (y_reg s)) (RgCall id op) (RCall so)] = if name_eqb (rg_get_name id (y_reg s)) n then G ++ op_got op so else G).
        { cbn [got flat_map got_ev about]. destruct op; try contradiction; destruct (name_eqb _ n); simpl; rewrite ?app_nil_r; auto. }
        rewrite ES, EGT. eapply sys_reg; eauto.
      + unfold rg_add_name in EG. destruct (rg_create ne en m (ri_ts (rd_info d)) (y_reg s)) as [[id r1]| |] eqn:EC; cbn [bind] in EG; try discriminate.
        destruct (rg_call ne id (GoAdd (SmRed d) c1 c2) r1) as [[so r2]| |] eqn:EC2; cbn [bind] in EG; try discriminate. injection EG as <- <-.
        inversion HT as [|? ? HT1 _]; subst. simpl in HT1.
        destruct (R_create ne Hne o N F Hs st mo n Hn k _ S G T en m (ri_ts (rd_info d)) id r1 R ltac:(lia) EC) as (k1 & L1 & R1 & V1 & _ & B1 & O1).
        { intros HST. destruct (HK HST) as [_ K2]. cbn [times] in K2. destruct (name_eqb m n); [|exact Logic.I]. destruct K2 as [K2 _]. split; [exact K2|exact Logic.I]. }
        pose proof R1 as (I1 & Hk1 & _).
        assert (CL : (rg_get_name id r1 = m /\ m <> []) \/ (m = [] /\ rg_get_name id r1 = [] /\ rg_get id r1 = Ok None)).
        { destruct (list_eq_dec ascii_dec m []) as [->|NM].
          - right. rewrite (B1 eq_refl). split; auto. split; [|reflexivity]. apply (name_bad o N F k1 r1 I1 Hk1).
          - left. destruct (O1 NM) as [sn OB]. destruct (obj_named o k1 r1 m id sn I1 OB). auto. }
        destruct (R_call ne Hne o N F Hs st mo n Hn k1 r1 S G _ id (GoAdd (SmRed d) c1 c2) so r2 R1 EC2) as (R2 & V2).
        { destruct CL as [[-> NM]|(_ & _ & ->)]; auto. }
        { split; [exact HT1|exact Logic.I]. }
        { exact Logic.I. }
        { intros HST EN. split; [exact Logic.I|]. destruct (HK HST) as [_ K2]. cbn [times] in K2.
          destruct CL as [[EM NM]|(_ & EM & _)]; [|congruence]. assert (m = n) as -> by congruence. rewrite name_eqb_refl in *.
          destruct K2 as (_ & K2 & _). split; [exact K2|exact Logic.I]. }
        { intros HMO. specialize (HM HMO). contradiction. }
        assert (SAME : name_eqb (rg_get_name id r1) n = name_eqb m n) by (destruct CL as [[-> _]|(-> & -> & _)]; auto).
        rewrite SAME in R2. exists k1. split; [cbn [creations]; lia|].
        cbn [samples got flat_map got_ev app about times]. rewrite ?app_nil_r.
        assert (H2 : SysOk k1 (y_set_reg r2 s) tbl (if name_eqb m n then S ++ [SmRed d] else S) (if name_eqb m n then G ++ [] else G)
          (if name_eqb m n then given_time res c1 (ri_ts (rd_info d)) else last (if name_eqb m n then [given_time res (ce_clock en) (ri_ts (rd_info d))] else []) T)).
        { eapply sys_reg; [exact H|exact A|exact R2|eapply ev_trans; eauto]. }
        destruct (name_eqb m n); rewrite ?app_nil_r in *; exact H2.
      + destruct (rg_pop_all ne force clk (y_reg s)) as [[l r1]| |] eqn:EC; cbn [bind] in EG; try discriminate. injection EG as <- <-.
        destruct (R_pop_all ne Hne o N F Hs st mo n k _ S G T force clk l r1 R EC) as (R1 & V1).
        { intros HST. apply (HK HST). } { intros HMO. exact (HM HMO). }
        exists k. split; [lia|]. cbn [samples got flat_map got_ev app]. rewrite !app_nil_r. eapply sys_reg; eauto.
      + injection EG as <- <-. destruct (R_enable ne Hne o N Hs st mo n k _ S G T v R) as (R1 & V1).
        { intros HST. apply (HK HST). }
        exists k. split; [lia|]. cbn [samples got flat_map got_ev app]. rewrite !app_nil_r. eapply sys_reg; eauto.
      + destruct v; [contradiction|]. injection EG as <- <-. exists k. split; [lia|]. cbn [samples got flat_map got_ev app]. rewrite !app_nil_r.
        eapply sys_reg; eauto.
        * split; [|split; [auto|split; [auto|split; [auto|exact HC]]]]. destruct I; constructor; auto.
        * apply ev_same; auto.
      + destruct (rg_del m (y_reg s)) as [[b r1]| |] eqn:EC; cbn [bind] in EG; try discriminate. injection EG as <- <-.
        destruct (R_del ne o N F st mo n Hn k _ S G T m b r1 R EC) as (R1 & V1).
        { intros HST. apply (HK HST). }
        exists k. split; [lia|]. cbn [samples got flat_map got_ev app]. rewrite !app_nil_r. eapply sys_reg; eauto.
      + injection EG as <- <-. exists k. split; [lia|]. cbn [samples got flat_map got_ev app]. rewrite !app_nil_r. eapply sys_reg; eauto. apply ev_refl.
    - (* YPushout *)
      unfold w_pushout in E. destruct (rg_pop_all ne force clk (w_reg (y_wrt s))) as [[l r1]| |] eqn:EC; cbn [bind] in E; try discriminate.
      destruct (R_pop_all ne Hne o N F Hs st mo n k _ S G T force clk l r1 R EC) as (R1 & V1).
      { intros HST. apply (HK HST). } { intros HMO. exact (HM HMO). }
      assert (GM : forall l0, got n (map (fun q => LHandler (fst q) (snd q)) l0) = flat_map (fun q : name * adata => if name_eqb (fst q) n then [snd q] else []) l0)
        by (intros l0; unfold got; now rewrite flat_map_concat_map, map_map, <- flat_map_concat_map).
      assert (exists w, w_reg w = r1 /\ w_handler w = hh /\ e = map (fun q => LHandler (fst q) (snd q)) l ++ [LPushed (length l)] /\ s' = mk_sys w true (y_funs s) (y_pts s)) as (w & WR & WH & -> & ->).
      { rewrite HW in E. destruct hh; cbn [bind] in E.
        - injection E as <- <-. exists (mk_wrt r1 true). repeat split.
        - destruct l; cbn [bind] in E; try discriminate. injection E as <- <-. exists (mk_wrt r1 false). repeat split. }
      pose proof (handed_map (fun q => q) l) as HD. cbv beta in HD.
      exists k. split; [lia|]. rewrite meters_app, samples_app, got_app, (handed_meters _ HD), (handed_samples _ _ HD), GM.
      cbn [samples got flat_map got_ev app meters]. rewrite !app_nil_r. split; [exact WH|]. simpl. unfold y_reg. simpl. rewrite WR. split; [exact R1|].
      destruct H as (_ & H). rewrite A in H. destruct H as [_ FS]. eapply funs_ev; eauto.
    - (* YDestroy *)
      assert (HST : st = false) by (apply Bool.not_true_is_false; intros HST; destruct (HK HST); contradiction).
      unfold w_pushout in E. destruct (rg_pop_all ne true clk (w_reg (y_wrt s))) as [[l r1]| |] eqn:EC; cbn [bind] in E; try discriminate.
      destruct (R_pop_all ne Hne o N F Hs st mo n k _ S G T true clk l r1 R EC) as (R1 & V1); [congruence| |].
      { intros HMO. specialize (Hms HMO). congruence. }
      assert (GM : forall l0, got n (map (fun q => LHandler (fst q) (snd q)) l0) = flat_map (fun q : name * adata => if name_eqb (fst q) n then [snd q] else []) l0)
        by (intros l0; unfold got; now rewrite flat_map_concat_map, map_map, <- flat_map_concat_map).
      assert (X : e = map (fun q => LHandler (fst q) (snd q)) l /\ w_handler (y_wrt s') = hh /\ y_alive s' = false /\ rg_arr (y_reg s') = []).
      { rewrite HW in E. destruct hh; cbn [bind] in E.
        - injection E as <- <-. repeat split.
        - destruct l; cbn [bind] in E; try discriminate. injection E as <- <-. repeat split. }
      destruct X as (-> & X1 & X2 & X3).
      pose proof (handed_map (fun q => q) l) as HD. cbv beta in HD.
      exists k. split; [lia|]. rewrite (handed_meters _ HD), (handed_samples _ _ HD), GM, !app_nil_r. split; [exact X1|]. rewrite X2. split; auto. split; auto.
      destruct R1 as (_ & _ & _ & _ & HC1). eapply (kill2_inv ne ao); eauto.
  Qed.

  Lemma sys_run ops : forall k s tbl S G T e s', SysOk k s tbl S G T -> y_run ne s ops = Ok (e, s') -> Forall (y_public o) ops -> Forall ev_typed e ->
    (k + list_sum (map creations ops) <= N)%nat -> (st = true -> Forall (kept n) ops /\ forward T (flat_map (times o n) ops)) -> (mo = true -> Forall metered ops) ->
    exists k', (k' <= k + list_sum (map creations ops))%nat /\ SysOk k' s' (tbl ++ meters e) (S ++ samples n tbl e) (G ++ got n e) (last (flat_map (times o n) ops) T).
  Proof.
    induction ops as [|op ops IH]; intros k s tbl S G T e s' H E HP HT HN HK HM.
    - injection E as <- <-. exists k. split; [lia|]. simpl. rewrite !app_nil_r. exact H.
    - cbn [y_run] in E. destruct (y_do ne op s) as [[e1 s1]| |] eqn:E1; cbn [bind] in E; try discriminate.
      destruct (y_run ne s1 ops) as [[e2 s2]| |] eqn:E2; cbn [bind] in E; try discriminate. injection E as <- <-.
      inversion HP; subst. apply Forall_app in HT as [HT1 HT2]. cbn [map list_sum fold_right flat_map] in *. fold (list_sum (map creations ops)) in HN.
      destruct (sys_do k s tbl S G T op e1 s1 H E1) as (k1 & L1 & H1'); auto; [lia| | |].
      { intros HST. destruct (HK HST) as [K1 K2]. inversion K1; subst. apply forward_app in K2 as [K2 _]. auto. }
      { intros HMO. specialize (HM HMO). now inversion HM. }
      destruct (IH k1 s1 _ _ _ _ e2 s2 H1' E2) as (k2 & L2 & H2'); auto; [lia| | |].
      { intros HST. destruct (HK HST) as [K1 K2]. inversion K1; subst. apply forward_app in K2 as [_ K2]. auto. }
      { intros HMO. specialize (HM HMO). now inversion HM. }
      exists k2. split; [cbn [map list_sum fold_right]; fold (list_sum (map creations ops)); lia|]. rewrite meters_app, samples_app, got_app, last_app, !app_assoc. exact H2'.
  Qed.
End Run.
