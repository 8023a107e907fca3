(** Histories of a multi_aggregator seen from one name; silence of pushout; totality. *)
From Coq Require Import ZArith List Bool Permutation Lia Arith Ascii.
From Verif Require Import Base ModelTypes ModelAvg ModelReducer SpecReducer ModelSeparator SpecSeparator SepProofs
  ModelAggregator SpecAggregator AggProofs AggRun AggFinal AggSafe ModelRegistry SpecRegistry RegProofs ModelMulti SpecMulti MultiProofs.
Import ListNotations.
Local Open Scope Z_scope.

Lemma of_name_app {A} n (l m : list (name * A)) : of_name n (l ++ m) = of_name n l ++ of_name n m.
Proof. unfold of_name. now rewrite filter_app, map_app. Qed.
Lemma of_name_own {A B} n (f : A -> B) l : of_name n (map (fun a => (n, f a)) l) = map f l.
Proof. unfold of_name. induction l; simpl; auto. rewrite name_eqb_refl. simpl. now rewrite IHl. Qed.
Lemma of_name_other {A B} n k (f : A -> B) l : k <> n -> of_name n (map (fun a => (k, f a)) l) = [].
Proof. intros H. unfold of_name. induction l; simpl; auto. destruct (name_eqb_spec n k); [congruence|auto]. Qed.
Lemma of_name_in {A} n (l : list (name * A)) a : In a (of_name n l) <-> In (n, a) l.
Proof.
  unfold of_name. rewrite in_map_iff. split.
  - intros ([k x] & E & H). simpl in E. subst x. apply filter_In in H. simpl in H. destruct H as [H E].
    destruct (name_eqb_spec n k); [subst; auto|discriminate].
  - intros H. exists (n, a). split; auto. apply filter_In. simpl. rewrite name_eqb_refl. auto.
Qed.
Lemma of_name_single {A} n (l : list (name * A)) : NoDup (map fst l) -> (length (of_name n l) <= 1)%nat.
Proof.
  unfold of_name. rewrite map_length. induction l as [|[k v] l IH]; simpl; auto. intros H. inversion H; subst.
  destruct (name_eqb_spec n k) as [->|N]; simpl; [|apply IH; auto].
  enough (E : filter (fun p : name * A => name_eqb k (fst p)) l = []) by (rewrite E; simpl; lia).
  clear - H2. induction l as [|[x v] l IH]; simpl; auto. simpl in H2. destruct (name_eqb_spec k x) as [->|N]; [exfalso; apply H2; auto|].
  apply IH. auto.
Qed.

Section Nth.
  Variable ne : nat -> list Z -> list Z.
  Variable o : aopts.

  (** * One name at a time *)
  Lemma push_cell e n d h f b l f1 k : single_push ne o e n d h f b l f1 ->
    if name_eqb k n then exists g, kpush ne o e d (f k) = Ok (b, of_name k l, g) /\ f1 k = Some g
    else of_name k l = [] /\ f1 k = f k.
  Proof.
    intros (g & recs & g1 & A & B & -> & _ & U1 & U2). destruct (name_eqb_spec k n) as [->|N].
    - exists g1. split; auto. unfold kpush. destruct (f n) as [g0|]; [subst g0|rewrite A]; cbn [bind]; rewrite B; cbn [bind out_bool out_handler];
        rewrite of_name_own; auto.
    - split; [apply of_name_other; congruence|auto].
  Qed.
  Lemma pushes_cell h k : forall ps f l f1, single_pushes ne o h ps f l f1 ->
    kpushes ne o (of_name k (map (fun p => (fst (snd p), (fst p, snd (snd p)))) ps)) (f k) = Ok (of_name k l, f1 k).
  Proof.
    induction 1 as [f f' E|e n d t f b l f1 l2 f2 P S IH].
    - simpl. now rewrite E.
    - apply push_cell with (k := k) in P. rewrite of_name_app. unfold of_name in IH |- *. cbn [map filter fst snd].
      destruct (name_eqb k n); cbn [map snd].
      + destruct P as (g & P & F). cbn [kpushes]. rewrite P. cbn [bind]. rewrite F in IH. rewrite IH. reflexivity.
      + destruct P as (P & F). rewrite F in IH. unfold of_name in P. rewrite P. exact IH.
  Qed.
  Lemma single_cell op f out f1 n : single ne o op f out f1 ->
    match kcall n op with
    | Some c => kdo ne o c (f n) = Ok (kview n op out, f1 n)
    | None => f1 n = f n /\ of_name n (mrecs out) = []
    end.
  Proof.
    destruct op, out; simpl; try tauto.
    - intros P. apply push_cell with (k := n) in P. destruct (name_eqb n n0); simpl; [|tauto].
      destruct P as (g & -> & F). cbn [bind]. rewrite F. auto.
    - intros (-> & S). rewrite (pushes_cell h n _ _ _ _ S). reflexivity.
    - intros (B & -> & U1 & U2). destruct (name_eqb_spec n n0) as [->|N]; simpl; [|auto].
      rewrite U1. repeat f_equal. destruct (f n0), b; auto; exfalso; destruct B as [B1 B2];
        [specialize (B2 ltac:(discriminate)); discriminate|apply B1; auto].
    - intros (N & H & L & F). specialize (F n). pose proof (of_name_single n l N) as S1.
      destruct (f n) as [g|] eqn:E.
      + destruct F as (a & g' & C & F). rewrite C, F. cbn [bind out_ptr]. repeat f_equal.
        assert (I : forall x, In x (of_name n l) <-> a = Some x).
        { intros x. rewrite of_name_in, L. split.
          - intros (g0 & g1 & E0 & C0). rewrite E in E0. injection E0 as <-. rewrite C in C0. congruence.
          - intros ->. eauto. }
        destruct (of_name n l) as [|x [|y t]]; [|destruct a|simpl in S1; lia].
        * destruct a as [x|]; auto. destruct (proj2 (I x) eq_refl).
        * f_equal. assert (Q : Some a = Some x) by (apply I; left; auto). congruence.
        * assert (Q : None = Some x) by (apply I; left; auto). discriminate.
      + rewrite F. repeat f_equal. destruct (of_name n l) as [|x t] eqn:O; auto.
        exfalso. assert (I : In x (of_name n l)) by (rewrite O; left; auto). apply of_name_in, L in I.
        destruct I as (g & g' & E' & _). congruence.
    - intros (_ & F). auto.
  Qed.
  Lemma isolation_run n : forall f ops outs f1, single_run ne o f ops outs f1 ->
    krun ne o (f n) (map fst (kproject n ops outs)) = Ok (map snd (kproject n ops outs), f1 n).
  Proof.
    induction 1 as [f f' E|op t f out f1 outs f2 S R IH]; simpl; [now rewrite E|].
    apply single_cell with (n := n) in S. destruct (kcall n op) as [c|]; simpl.
    - rewrite S. cbn [bind]. rewrite IH. reflexivity.
    - destruct S as [S _]. rewrite S in IH. exact IH.
  Qed.
End Nth.

(** * Nothing is ever queued *)
Definition quiet (g : agg) : Prop := g_list g = [] /\ s_list (g_sep g) = [].
Section Quiet.
  Variable ne : nat -> list Z -> list Z.
  Variable o : aopts.
  Lemma quiet_new c rnd ts g : agg_new o c rnd ts = Ok g -> quiet g.
  Proof.
    unfold agg_new, sep_new. intros E. destruct (get_ts _ _ _ _); cbn [bind] in E; try discriminate.
    destruct (if negb _ then _ else _); cbn [bind] in E; try discriminate. destruct (chk _); cbn [bind] in E; try discriminate.
    injection E as <-. split; reflexivity.
  Qed.
  Lemma quiet_push d c1 c2 g r g1 : quiet g -> g_call ne (GoPush (SmRed d) true c1 c2) g = Ok (r, g1) -> quiet g1.
  Proof.
    intros [Q1 Q2] E. cbn [g_call] in E. unfold g_push_red, g_push_with in E.
    destruct (negb (g_enabled g)); cbn [bind negb] in E; [injection E as <- <-; split; auto|].
    unfold s_push_red, s_put in E. destruct (get_ts _ _ _ _); cbn [bind] in E; try discriminate.
    unfold s_separate in E. destruct (get_ts _ _ _ _); cbn [bind] in E; try discriminate.
    destruct (negb false && _); cbn [bind] in E.
    - destruct (chk _); cbn [bind] in E; try discriminate. destruct (_ <? _); cbn [bind] in E;
        (destruct (g_finish_all _ _ _); cbn [bind] in E; try discriminate; injection E as <- <-; split; auto).
    - destruct (sep_loop _ _ _ _ _) as [[[recs r1] nx]| |]; cbn [bind] in E; try discriminate.
      destruct (chk _); cbn [bind] in E; try discriminate. destruct (_ <? _); cbn [bind] in E;
        (destruct (g_finish_all _ _ _); cbn [bind] in E; try discriminate; injection E as <- <-; split; simpl; auto; rewrite Q2; auto).
  Qed.
  Lemma quiet_pop g : quiet g -> g_pop g = (None, g).
  Proof. intros [Q1 Q2]. unfold g_pop. now rewrite Q1. Qed.
  Lemma quiet_force g r g1 : quiet g -> g_call ne GoForcePop g = Ok (r, g1) -> quiet g1.
  Proof.
    intros [Q1 Q2] E. cbn [g_call] in E. unfold g_force_pop, s_force_pop, s_pop in E. rewrite Q2 in E.
    destruct (r_detach _ _) as [[a r1]| |]; cbn [bind] in E; try discriminate.
    destruct a; [destruct (chk _); cbn [bind] in E; try discriminate; destruct (g_finish _ _ _); cbn [bind] in E; try discriminate|cbn [bind] in E];
      injection E as <- <-; split; auto.
  Qed.
  Lemma quiet_popc f g r g1 : quiet g -> g_call ne (pop_call f) g = Ok (r, g1) -> quiet g1.
  Proof. destruct f; intros Q E; [eapply quiet_force; eauto|]. simpl in E. rewrite quiet_pop in E by auto. now injection E as <- <-. Qed.

  Definition all_quiet (f : amap) : Prop := forall n g, f n = Some g -> quiet g.
  Lemma update_quiet f n x f1 : all_quiet f -> (forall g, x = Some g -> quiet g) -> update f n x f1 -> all_quiet f1.
  Proof.
    intros Q X [U1 U2] k g E. destruct (name_eqb_spec k n) as [->|N]; [apply X; congruence|]. rewrite U2 in E by auto. eauto.
  Qed.
  Lemma single_push_quiet e n d h f b l f1 : all_quiet f -> single_push ne o e n d h f b l f1 -> all_quiet f1.
  Proof.
    intros Q (g & recs & g1 & A & B & _ & _ & U). refine (update_quiet _ _ _ _ Q _ U). intros g2 E. injection E as <-.
    eapply quiet_push; [|exact B]. destruct (f n) as [g0|] eqn:F; [subst; eauto|]. eapply quiet_new; eauto.
  Qed.
  Lemma single_quiet op f out f1 : all_quiet f -> single ne o op f out f1 -> all_quiet f1.
  Proof.
    intros Q. destruct op, out; simpl; try tauto.
    - apply single_push_quiet. auto.
    - intros (_ & S). revert Q. induction S; intros Q; [intros k g; rewrite H; apply Q|]. apply IHS. eapply single_push_quiet; eauto.
    - intros (_ & _ & U). refine (update_quiet _ _ _ _ Q _ U). discriminate.
    - intros (_ & _ & _ & F) n g E. specialize (F n). destruct (f n) as [g0|] eqn:E0; [|congruence].
      destruct F as (a & g' & C & F). assert (g = g') by congruence. subst g'. eapply quiet_popc; [|exact C]. eauto.
    - intros (_ & F) n g E. rewrite F in E. eauto.
  Qed.
  Lemma run_quiet f ops outs f1 : all_quiet f -> single_run ne o f ops outs f1 -> all_quiet f1.
  Proof.
    intros Q R. revert Q. induction R; intros Q; [intros k g; rewrite H; apply Q|]. apply IHR. eapply single_quiet; eauto.
  Qed.
End Quiet.

Lemma bm_set_id n g b : NoDup (keys b) -> bm_find n b = Some g -> bm_set n g b = b.
Proof.
  intros N F. unfold bm_set. rewrite F. apply bm_find_in in F; auto. clear - N F.
  induction b as [|[k v] b IH]; simpl in *; auto. inversion N; subst. destruct F as [E|F].
  - injection E as -> ->. rewrite name_eqb_refl. f_equal. rewrite <- (map_id b) at 2. apply map_ext_in. intros [k v] H.
    simpl. destruct (name_eqb_spec n k) as [->|]; auto. exfalso. apply H1. change k with (fst (k, v)). now apply in_map.
  - destruct (name_eqb_spec n k) as [->|]; [exfalso; apply H1; change k with (fst (k, g)); now apply in_map|]. f_equal. auto.
Qed.

Section Hash.
  Variable ne : nat -> list Z -> list Z.
  Variable hash : name -> Z.
  Variable o : maopts.
  Hypothesis Hpos : (0 < ma_hash o)%nat.

  Lemma loop_quiet h : forall ks b, NoDup (keys b) -> (forall n g, bm_find n b = Some g -> quiet g) ->
    bm_loop ne false h ks b = Ok ([], b).
  Proof.
    induction ks as [|k ks IH]; intros b N Q; cbn [bm_loop]; auto. destruct (bm_find k b) as [g|] eqn:F; auto.
    rewrite quiet_pop by eauto. cbn [bind]. rewrite bm_set_id by auto. rewrite IH by auto. reflexivity.
  Qed.
  Lemma pushout_silent ops outs m h ord : Forall order_ok ops ->
    ma_run ne hash (ma_new o) ops = Ok (outs, m) -> ma_pushout ne false h ord m = Ok ([], m).
  Proof.
    intros O E. destruct (ma_run_sim ne hash o ops _ _ _ (MInv_new hash o Hpos) O E) as (I & _).
    pose proof (single_map ne hash o ops outs m Hpos O E) as S.
    apply run_quiet in S; [|intros n g; discriminate].
    unfold ma_pushout. enough (G : ma_shards ne false h ord (mu_list m) = Ok ([], mu_list m)) by (rewrite G; destruct m; reflexivity).
    assert (H : forall i b, nth_error (mu_list m) i = Some b -> NoDup (keys b) /\ forall n g, bm_find n b = Some g -> quiet g).
    { intros i b Hb. split; [eapply mi_nd; eauto|]. intros n g F. apply (S n).
      unfold ma_get. assert (i = shard_of hash o n) by (eapply get_shard; eauto). subst i. now rewrite Hb. }
    clear - H. induction (mu_list m) as [|b bs IH]; cbn [ma_shards]; auto.
    unfold bm_pushout. destruct (H 0%nat b eq_refl) as [N Q]. rewrite loop_quiet by auto. cbn [bind].
    rewrite IH by (intros i x Hx; apply (H (Datatypes.S i)); exact Hx). reflexivity.
  Qed.

  Lemma isolation n ops outs m : Forall order_ok ops -> ma_run ne hash (ma_new o) ops = Ok (outs, m) ->
    krun ne (ma_agg o) None (map fst (kproject n ops outs)) = Ok (map snd (kproject n ops outs), ma_get hash o m n).
  Proof. intros O E. exact (isolation_run ne (ma_agg o) n _ _ _ _ (single_map ne hash o ops outs m Hpos O E)). Qed.
End Hash.

(** * The history of one aggregator *)
Section Hist.
  Variable ne : nat -> list Z -> list Z.
  Variable o : aopts.
  Lemma g_run_app l1 : forall l2 g, g_run ne g (l1 ++ l2) =
    ('(o1, g1) <- g_run ne g l1 ;; '(o2, g2) <- g_run ne g1 l2 ;; Ok (o1 ++ o2, g2)).
  Proof.
    induction l1 as [|x l1 IH]; intros l2 g; simpl; [destruct (g_run ne g l2) as [[? ?]| |]; auto|].
    destruct (g_call ne x g) as [[r g1]| |]; cbn [bind]; auto. rewrite IH.
    destruct (g_run ne g1 l1) as [[o1 g2]| |]; cbn [bind]; auto. destruct (g_run ne g2 l2) as [[o2 g3]| |]; cbn [bind]; auto.
  Qed.
  Lemma push_report d c1 c2 g r g1 : g_call ne (GoPush (SmRed d) true c1 c2) g = Ok (r, g1) -> reports r = map no_perc (out_handler r).
  Proof.
    cbn [g_call]. destruct (g_push_red _ _ _ _ _ _) as [[[b l] g2]| |]; cbn [bind]; try discriminate. intros E. injection E as <- <-.
    unfold reports. simpl. now rewrite app_nil_r.
  Qed.
  Lemma pop_report f g r g1 : g_call ne (pop_call f) g = Ok (r, g1) -> reports r = match out_ptr r with Some a => [a] | None => [] end.
  Proof.
    destruct f; cbn [g_call pop_call].
    - destruct (g_force_pop _ _) as [[a g2]| |]; cbn [bind]; try discriminate. intros E. injection E as <- <-. reflexivity.
    - destruct (g_pop g). intros E. injection E as <- <-. reflexivity.
  Qed.
  (** On a new aggregator nothing can be popped. *)
  Lemma new_pop c rnd ts g f : agg_new o c rnd ts = Ok g -> g_call ne (pop_call f) g = Ok (mk_sout None [] None, g).
  Proof.
    intros E. pose proof (quiet_new o c rnd ts g E) as Q. destruct f; cbn [pop_call g_call]; [|now rewrite quiet_pop].
    unfold agg_new, sep_new in E. destruct (get_ts _ _ _ _); cbn [bind] in E; try discriminate.
    destruct (if negb _ then _ else _); cbn [bind] in E; try discriminate. destruct (chk _); cbn [bind] in E; try discriminate.
    injection E as <-. reflexivity.
  Qed.
  Definition push_ops (n : name) (ps : list (penv * (name * rdata))) : list gop :=
    flat_map (fun p => if name_eqb n (fst (snd p)) then [GoPush (SmRed (snd (snd p))) true (pe_c1 (fst p)) (pe_c2 (fst p))] else []) ps.
  (** [f n] = Some g: everything happens on g. *)
  Lemma push_some e n d h f b l f1 k g : single_push ne o e n d h f b l f1 -> f k = Some g ->
    if name_eqb k n
    then exists r g1, g_call ne (GoPush (SmRed d) true (pe_c1 e) (pe_c2 e)) g = Ok (r, g1) /\ reports r = of_name k l /\ f1 k = Some g1
    else of_name k l = [] /\ f1 k = Some g.
  Proof.
    intros (g0 & recs & g1 & A & B & -> & _ & U1 & U2) F. destruct (name_eqb_spec k n) as [->|N].
    - rewrite F in A. subst g0. exists (mk_sout (Some b) recs None), g1. split; auto. split; auto.
      rewrite of_name_own. unfold reports. simpl. now rewrite app_nil_r.
    - split; [apply of_name_other; auto|]. rewrite U2; auto.
  Qed.
  Lemma pushes_some h k : forall ps f l f1 g, single_pushes ne o h ps f l f1 -> f k = Some g ->
    exists rs g1, g_run ne g (push_ops k ps) = Ok (rs, g1) /\ of_name k l = flat_map reports rs /\ f1 k = Some g1.
  Proof.
    intros ps f l f1 g S. revert g. induction S as [f f' E|e n d t f b l f1 l2 f2 P S IH]; intros g F.
    - exists [], g. rewrite E. auto.
    - apply push_some with (k := k) (g := g) in P; auto. rewrite of_name_app. unfold push_ops. cbn [flat_map fst snd]. fold (push_ops k t).
      destruct (name_eqb k n).
      + destruct P as (r & g1 & C & R & F1). destruct (IH g1 F1) as (rs & g2 & C2 & R2 & F2). exists (r :: rs), g2.
        cbn [app g_run]. rewrite C. cbn [bind]. rewrite C2. cbn [bind]. split; auto. split; auto. simpl. now rewrite R, R2.
      + destruct P as (R & F1). destruct (IH g F1) as (rs & g2 & C2 & R2 & F2). exists rs, g2. rewrite R. auto.
  Qed.
  Lemma single_some op f out f1 n g : single ne o op f out f1 -> f n = Some g -> op <> MDel n ->
    exists rs g1, g_run ne g (hist1 n op) = Ok (rs, g1) /\ of_name n (mrecs out) = flat_map reports rs /\ f1 n = Some g1.
  Proof.
    intros S F ND. destruct op, out; try (simpl in S; tauto).
    - simpl in S. apply push_some with (k := n) (g := g) in S; auto. simpl. destruct (name_eqb n n0).
      + destruct S as (r & g1 & C & R & F1). exists [r], g1. cbn [g_run]. rewrite C. cbn [bind flat_map]. rewrite app_nil_r. auto.
      + exists [], g. auto.
    - destruct S as (_ & S). simpl. apply (pushes_some h n _ _ _ _ g S F).
    - destruct S as (_ & -> & U1 & U2). exists [], g. simpl. split; auto. split; auto. rewrite U2; auto. intros ->. auto.
    - pose proof (single_cell ne o _ _ _ _ n S) as K. simpl in S. destruct S as (_ & _ & _ & S). specialize (S n). rewrite F in S. destruct S as (a & g1 & C & F1).
      exists [mk_sout None [] a], g1. simpl. rewrite C. cbn [bind]. split; auto. split; auto.
      simpl in K. rewrite F, C in K. cbn [bind out_ptr] in K. injection K as K _. rewrite <- K. unfold reports. simpl. now rewrite app_nil_r.
    - destruct S as (_ & S). exists [], g. simpl. split; auto. split; auto. now rewrite S.
  Qed.
  Lemma run_some n f ops outs f1 : single_run ne o f ops outs f1 -> forall g, f n = Some g -> ~ In (MDel n) ops ->
    exists rs g1, g_run ne g (hist n ops) = Ok (rs, g1) /\ of_name n (flat_map mrecs outs) = flat_map reports rs /\ f1 n = Some g1.
  Proof.
    induction 1 as [f f' E|op t f out f1 outs f2 S R IH]; intros g F ND.
    - exists [], g. rewrite E. auto.
    - destruct (single_some op f out f1 n g S F) as (rs & g1 & C & Re & F1); [intros ->; apply ND; left; auto|].
      destruct (IH g1 F1) as (rs2 & g2 & C2 & Re2 & F2); [intros H; apply ND; right; auto|].
      exists (rs ++ rs2), g2. unfold hist. cbn [flat_map]. rewrite g_run_app, C. cbn [bind]. fold (hist n t). rewrite C2. cbn [bind].
      rewrite of_name_app, flat_map_app, Re, Re2. auto.
  Qed.
  (** [f n] = None: until the first push only pops that find nothing. *)
  Lemma push_none e n d h f b l f1 k : single_push ne o e n d h f b l f1 -> f k = None ->
    if name_eqb k n
    then exists c rnd ts g r g1, agg_new o c rnd ts = Ok g /\ g_call ne (GoPush (SmRed d) true (pe_c1 e) (pe_c2 e)) g = Ok (r, g1) /\
           reports r = of_name k l /\ f1 k = Some g1
    else of_name k l = [] /\ f1 k = None.
  Proof.
    intros (g0 & recs & g1 & A & B & -> & _ & U1 & U2) F. destruct (name_eqb_spec k n) as [->|N].
    - rewrite F in A. exists (pe_clock e), (pe_rnd e), (ri_ts (rd_info d)), g0, (mk_sout (Some b) recs None), g1. split; auto. split; auto. split; auto.
      rewrite of_name_own. unfold reports. simpl. now rewrite app_nil_r.
    - split; [apply of_name_other; auto|]. rewrite U2; auto.
  Qed.
  Lemma pushes_none h k : forall ps f l f1, single_pushes ne o h ps f l f1 -> f k = None ->
    (push_ops k ps = [] /\ of_name k l = [] /\ f1 k = None) \/
    (exists c rnd ts g rs g1, agg_new o c rnd ts = Ok g /\ g_run ne g (push_ops k ps) = Ok (rs, g1) /\ of_name k l = flat_map reports rs /\ f1 k = Some g1).
  Proof.
    intros ps f l f1 S. induction S as [f f' E|e n d t f b l f1 l2 f2 P S IH]; intros F.
    - left. rewrite E. auto.
    - apply push_none with (k := k) in P; auto. rewrite of_name_app. unfold push_ops. cbn [flat_map fst snd]. fold (push_ops k t).
      destruct (name_eqb k n).
      + destruct P as (c & rnd & ts & g & r & g1 & N & C & R & F1). right.
        destruct (pushes_some h k _ _ _ _ g1 S F1) as (rs & g2 & C2 & R2 & F2). exists c, rnd, ts, g, (r :: rs), g2. split; auto.
        cbn [app g_run]. rewrite C. cbn [bind]. rewrite C2. cbn [bind]. split; auto. split; auto. simpl. now rewrite R, R2.
      + destruct P as (R & F1). rewrite R. apply IH. auto.
  Qed.
  Definition idle_ops (ops : list gop) : Prop := Forall (fun op => exists f, op = pop_call f) ops.
  Lemma idle_run c rnd ts g ops : agg_new o c rnd ts = Ok g -> idle_ops ops -> exists rs, g_run ne g ops = Ok (rs, g) /\ flat_map reports rs = [].
  Proof.
    intros E. induction 1 as [|op ops (f & ->) H (rs & C & R)]; simpl; eauto. rewrite (new_pop c rnd ts g f E). cbn [bind]. rewrite C. cbn [bind].
    eexists. split; eauto.
  Qed.
  Lemma single_none op f out f1 n : single ne o op f out f1 -> f n = None ->
    (idle_ops (hist1 n op) /\ of_name n (mrecs out) = [] /\ f1 n = None) \/
    (exists c rnd ts g rs g1, agg_new o c rnd ts = Ok g /\ g_run ne g (hist1 n op) = Ok (rs, g1) /\ of_name n (mrecs out) = flat_map reports rs /\ f1 n = Some g1).
  Proof.
    intros S F. destruct op, out; try (simpl in S; tauto).
    - simpl in S. apply push_none with (k := n) in S; auto. simpl. destruct (name_eqb n n0).
      + destruct S as (c & rnd & ts & g & r & g1 & N & C & R & F1). right. exists c, rnd, ts, g, [r], g1. split; auto. cbn [g_run]. rewrite C. cbn [bind flat_map]. rewrite app_nil_r. auto.
      + left. split; [constructor|auto].
    - destruct S as (_ & S). simpl. destruct (pushes_none h n _ _ _ _ S F) as [(A & B & C)|H]; [left|right; auto]. fold (push_ops n ps). rewrite A. split; [constructor|auto].
    - destruct S as (_ & -> & U1 & U2). left. split; [constructor|]. split; auto. destruct (name_eqb_spec n n0) as [->|N]; [congruence|rewrite U2; auto].
    - pose proof (single_cell ne o _ _ _ _ n S) as K. simpl in K. rewrite F in K. injection K as K1 K2. left. simpl. rewrite <- K1.
      split; [|auto]. constructor; [eauto|constructor].
    - destruct S as (_ & S). left. split; [constructor|]. split; auto. now rewrite S.
  Qed.
  Lemma run_none n f ops outs f1 : single_run ne o f ops outs f1 -> f n = None -> ~ In (MDel n) ops ->
    (idle_ops (hist n ops) /\ of_name n (flat_map mrecs outs) = [] /\ f1 n = None) \/
    (exists c rnd ts g rs g1, agg_new o c rnd ts = Ok g /\ g_run ne g (hist n ops) = Ok (rs, g1) /\ of_name n (flat_map mrecs outs) = flat_map reports rs /\ f1 n = Some g1).
  Proof.
    induction 1 as [f f' E|op t f out f1 outs f2 S R IH]; intros F ND.
    - left. rewrite E. split; [constructor|auto].
    - unfold hist. cbn [flat_map]. rewrite of_name_app. fold (hist n t). destruct (single_none op f out f1 n S F) as [(A & B & C)|(c & rnd & ts & g & rs & g1 & N & C & Re & F1)].
      + rewrite B. destruct IH as [(A2 & B2 & C2)|(c & rnd & ts & g & rs & g1 & N & C2 & Re & F1)]; auto; [intros H; apply ND; right; auto| |].
        * left. split; auto. apply Forall_app. auto.
        * right. destruct (idle_run c rnd ts g _ N A) as (rs0 & D & R0). exists c, rnd, ts, g, (rs0 ++ rs), g1. split; auto.
          rewrite g_run_app, D. cbn [bind]. rewrite C2. cbn [bind]. rewrite flat_map_app, R0. auto.
      + right. destruct (run_some n _ _ _ _ R g1 F1) as (rs2 & g2 & C2 & Re2 & F2); [intros H; apply ND; right; auto|].
        exists c, rnd, ts, g, (rs ++ rs2), g2. split; auto. rewrite g_run_app, C. cbn [bind]. rewrite C2. cbn [bind]. rewrite flat_map_app, Re, Re2. auto.
  Qed.
End Hist.

(** * Totality *)
Section Total.
  Variable ne : nat -> list Z -> list Z.
  Hypothesis Hne : nth_element_ok ne.
  Variable hash : name -> Z.
  Variable o : maopts.
  Hypothesis Hpos : (0 < ma_hash o)%nat.
  Hypothesis Hs : 0 < so_step (ao_sep (ma_agg o)) <= i64_max.
  Notation safe := (GSafe ne (ma_agg o)).
  Definition TInv (k : nat) (m : multi) : Prop :=
    MInv hash o m /\ forall n g, ma_get hash o m n = Some g -> safe k g.

  Lemma TInv_le k k' m : (k <= k')%nat -> TInv k m -> TInv k' m.
  Proof. intros L [A B]. split; auto. intros n g E. eapply GSafe_le; eauto. Qed.
  Lemma push_total k m e n d : TInv k m -> push_safe (ma_agg o) e d -> Z.of_nat k < two64 ->
    exists b l m1, ma_push ne hash e n d true m = Ok (b, l, m1) /\ TInv (k + length (rd_data d)) m1.
  Proof.
    intros [I S] (HT & HS & N) L. destruct (shard_ok hash o m n I) as (s & E1 & E2 & E3).
    assert (G : exists g, match bm_find n s with Some g => Ok g | None => agg_new (ma_agg o) (pe_clock e) (pe_rnd e) (ri_ts (rd_info d)) end = Ok g /\ safe k g).
    { destruct (bm_find n s) as [g|] eqn:F; [exists g; split; auto; apply (S n); congruence|].
      destruct (GSafe_make ne (ma_agg o) Hs _ _ _ N) as (g & A & B). exists g. split; auto. eapply GSafe_le; [|exact B]. lia. }
    destruct G as (g & G1 & G2). destruct (GSafe_call ne Hne (ma_agg o) Hs k g _ G2 HT HS L) as (r & g1 & C & G3).
    assert (C0 := C). cbn [g_call] in C. destruct (g_push_red ne (pe_c1 e) (pe_c2 e) d true g) as [[[b recs] g2]| |] eqn:P; cbn [bind] in C; try discriminate.
    injection C as <- <-.
    assert (E : ma_push ne hash e n d true m = Ok (b, map (fun a => (n, only_reduced a)) recs, ma_put (shard_of hash o n) (bm_set n g2 s) m)).
    { unfold ma_push. rewrite (pos_ok hash o m n I). cbn [bind]. rewrite E2. cbn [bind]. unfold bm_push. rewrite (mi_opt _ _ _ I), G1. cbn [bind].
      rewrite P. reflexivity. }
    eexists _, _, _. split; [exact E|]. destruct (push_sim ne hash o _ _ _ _ _ _ _ _ I E) as (I1 & (g0 & rs & g3 & A & B & _ & _ & U1 & U2)).
    split; auto. intros n' g' F. destruct (name_eqb_spec n' n) as [->|NE].
    - rewrite U1 in F. injection F as <-. assert (g0 = g).
      { rewrite E3 in A. destruct (bm_find n s); congruence. }
      subst g0. rewrite C0 in B. injection B as _ <-. exact G3.
    - rewrite U2 in F by auto. eapply GSafe_le; [|eapply S; eauto]. lia.
  Qed.
  Lemma pushes_total : forall ps k m, TInv k m -> Forall (fun p => push_safe (ma_agg o) (fst p) (snd (snd p))) ps ->
    Z.of_nat (k + length (flat_map (fun p => rd_data (snd (snd p))) ps)) < two64 ->
    exists b l m1, ma_multi_push ne hash ps true m = Ok (b, l, m1) /\ TInv (k + length (flat_map (fun p => rd_data (snd (snd p))) ps)) m1.
  Proof.
    induction ps as [|[e [n d]] ps IH]; intros k m T H L; cbn [ma_multi_push].
    - eexists _, _, _. split; auto. eapply TInv_le; [|exact T]. lia.
    - cbn [flat_map] in *. rewrite app_length in *. inversion H; subst. cbn [fst snd] in *.
      destruct (push_total k m e n d T H2 ltac:(lia)) as (b & l & m1 & E & T1). rewrite E. cbn [bind].
      destruct (IH _ _ T1 H3 ltac:(lia)) as (b2 & l2 & m2 & E2 & T2). rewrite E2. cbn [bind]. eexists _, _, _. split; auto.
      now rewrite Nat.add_assoc.
  Qed.
  Lemma loop_total force k : Z.of_nat k < two64 -> forall ks b, (forall n g, bm_find n b = Some g -> safe k g) ->
    exists l b1, bm_loop ne force true ks b = Ok (l, b1) /\ (forall n g, bm_find n b1 = Some g -> safe k g).
  Proof.
    intros L. induction ks as [|x ks IH]; intros b S; cbn [bm_loop]; [eauto|].
    destruct (bm_find x b) as [g|] eqn:F; [|apply IH; auto]. fold (pop1 ne force g).
    destruct (GSafe_call ne Hne (ma_agg o) Hs k g (pop_call force) (S _ _ F)) as (r & g1 & C & G); auto.
    1,2: destruct force; exact I.
    rewrite pop1_call in C. destruct (pop1 ne force g) as [[a g2]| |]; cbn [bind] in *; try discriminate. injection C as <- <-.
    replace (k + length (gop_values (pop_call force)))%nat with k in G by (destruct force; simpl; lia).
    destruct (IH (bm_set x g2 b)) as (l & b1 & E & S1).
    { intros n g' H. rewrite bm_set_find in H. destruct (name_eqb x n); [injection H as <-; auto|eauto]. }
    destruct a; cbn [bind]; rewrite E; cbn [bind]; eauto.
  Qed.
  Lemma ma_do_total k m op : TInv k m -> order_ok op -> mop_safe (ma_agg o) op -> Z.of_nat (k + length (mop_values op)) < two64 ->
    exists out m1, ma_do ne hash op m = Ok (out, m1) /\ TInv (k + length (mop_values op)) m1.
  Proof.
    intros T O H L. destruct op; cbn [ma_do mop_values mop_safe] in *.
    - destruct H as [-> H]. destruct (push_total k m e n d T H ltac:(lia)) as (b & l & m1 & E & T1). rewrite E. cbn [bind]. eauto.
    - destruct H as [-> H]. destruct (pushes_total ps k m T H L) as (b & l & m1 & E & T1). rewrite E. cbn [bind]. eauto.
    - destruct T as [I S]. destruct (ma_del hash n m) as [[b m1]| |] eqn:E.
      + cbn [bind]. eexists _, _. split; eauto. destruct (mdel_sim hash o m n b m1 I E) as (I1 & _ & U1 & U2). split; auto.
        intros n' g F. destruct (name_eqb_spec n' n) as [->|N]; [congruence|]. rewrite U2 in F by auto. eapply GSafe_le; [|eapply S; eauto]. lia.
      + exfalso. unfold ma_del in E. rewrite (pos_ok hash o m n I) in E. cbn [bind] in E. destruct (shard_ok hash o m n I) as (s & _ & E2 & _).
        rewrite E2 in E. cbn [bind] in E. destruct (bm_del n s). discriminate.
      + exfalso. unfold ma_del in E. rewrite (pos_ok hash o m n I) in E. cbn [bind] in E. destruct (shard_ok hash o m n I) as (s & _ & E2 & _).
        rewrite E2 in E. cbn [bind] in E. destruct (bm_del n s). discriminate.
    - subst h. simpl in L. destruct T as [I S].
      assert (X : forall bs, (forall b, In b bs -> forall n g, bm_find n b = Some g -> safe k g) -> exists l bs1, ma_shards ne force true ord bs = Ok (l, bs1)).
      { clear - Hne Hs Hpos L. induction bs as [|b bs IH]; intros H; cbn [ma_shards]; [eauto|].
        destruct (loop_total force k ltac:(lia) (ord (map fst b)) b (H b (or_introl eq_refl))) as (l & b1 & E & _). unfold bm_pushout. rewrite E. cbn [bind].
        destruct IH as (l2 & bs1 & E2); [intros x Hx; apply H; right; auto|]. rewrite E2. cbn [bind]. eauto. }
      destruct (X (mu_list m)) as (l & bs & E).
      { intros b Hb n g F. apply In_nth_error in Hb. destruct Hb as (i & Hb). apply (S n). assert (i = shard_of hash o n) by (eapply get_shard; eauto).
        subst i. unfold ma_get. now rewrite Hb. }
      assert (E1 : ma_pushout ne force true ord m = Ok (l, mk_multi (mu_opt m) bs)) by (unfold ma_pushout; rewrite E; reflexivity).
      rewrite E1. cbn [bind]. eexists _, _. split; eauto. destruct (mpushout_sim ne hash o m force true ord _ _ I O E1) as (I1 & _ & _ & _ & F).
      split; auto. intros n g H. specialize (F n). destruct (ma_get hash o m n) as [g0|] eqn:G0; [|congruence].
      destruct F as (a & g' & C & F). assert (g' = g) by congruence. subst g'.
      destruct (GSafe_call ne Hne (ma_agg o) Hs k g0 (pop_call force) (S _ _ G0)) as (r & g1 & C1 & G); auto; try (destruct force; exact Logic.I); try lia.
      rewrite C in C1. injection C1 as <- <-. eapply GSafe_le; [|exact G]. destruct force; simpl; lia.
    - eexists _, _. split; eauto. eapply TInv_le; [|exact T]. lia.
  Qed.
  Lemma ma_run_total : forall ops k m, TInv k m -> Forall order_ok ops -> Forall (mop_safe (ma_agg o)) ops ->
    Z.of_nat (k + length (flat_map mop_values ops)) < two64 -> exists outs m1, ma_run ne hash m ops = Ok (outs, m1).
  Proof.
    induction ops as [|op ops IH]; intros k m T O H L; cbn [ma_run]; [eauto|]. cbn [flat_map] in L. rewrite app_length in L.
    inversion O; inversion H; subst. destruct (ma_do_total k m op T) as (out & m1 & E & T1); auto; try lia. rewrite E. cbn [bind].
    destruct (IH _ m1 T1) as (outs & m2 & E2); auto; try lia. rewrite E2. cbn [bind]. eauto.
  Qed.
  Lemma multi_total ops : Forall order_ok ops -> Forall (mop_safe (ma_agg o)) ops -> Z.of_nat (length (flat_map mop_values ops)) < two64 ->
    exists outs m, ma_run ne hash (ma_new o) ops = Ok (outs, m).
  Proof.
    intros O H L. apply (ma_run_total ops 0 (ma_new o)); auto. split; [apply MInv_new; auto|]. intros n g E. rewrite get_new in E. discriminate.
  Qed.
End Total.

(** * Conservation for one name *)
Section Cons.
  Variable ne : nat -> list Z -> list Z.
  Hypothesis Hne : nth_element_ok ne.
  Variable hash : name -> Z.
  Variable o : maopts.
  Hypothesis Hpos : (0 < ma_hash o)%nat.

  Lemma history n ops outs m g : Forall order_ok ops -> ma_run ne hash (ma_new o) ops = Ok (outs, m) -> ~ In (MDel n) ops ->
    ma_get hash o m n = Some g ->
    exists c rnd ts g0 rs, agg_new (ma_agg o) c rnd ts = Ok g0 /\ g_run ne g0 (hist n ops) = Ok (rs, g) /\
      of_name n (flat_map mrecs outs) = flat_map reports rs.
  Proof.
    intros O E ND G. destruct (run_none ne (ma_agg o) n _ _ _ _ (single_map ne hash o ops outs m Hpos O E) eq_refl ND)
      as [(_ & _ & X)|(c & rnd & ts & g0 & rs & g1 & A & B & C & D)]; [congruence|].
    exists c, rnd, ts, g0, rs. split; auto. split; [congruence|auto].
  Qed.
  Lemma sum_count_app l m : sum_count (l ++ m) = sum_count l + sum_count m.
  Proof. unfold sum_count. rewrite map_app, fold_right_app. induction (map ad_count l); simpl; auto. lia. Qed.
  Definition push_pop (op : gop) : Prop := match op with GoPush _ true _ _ | GoPop | GoForcePop => True | _ => False end.
  Lemma hist_push_pop n ops : Forall push_pop (hist n ops).
  Proof.
    induction ops as [|op ops IH]; [constructor|]. apply Forall_app. split; auto. destruct op; simpl; auto.
    - destruct (name_eqb n n0); repeat constructor.
    - induction ps as [|p ps IHp]; simpl; auto. destruct (name_eqb n (fst (snd p))); simpl; auto. constructor; simpl; auto.
    - constructor; auto. now destruct force.
  Qed.
  Lemma reports_sum : forall ops g rs g1, Forall push_pop ops -> g_run ne g ops = Ok (rs, g1) ->
    sum_count (flat_map reports rs) = sum_count (flat_map out_handler rs ++ gpopped ops (map out_ptr rs)) /\
    submultiset (flat_map ad_data (flat_map reports rs)) (flat_map ad_data (flat_map out_handler rs ++ gpopped ops (map out_ptr rs))).
  Proof.
    induction ops as [|op ops IH]; intros g rs g1 H E; cbn [g_run] in E.
    - injection E as <- <-. simpl. split; auto. exists []. constructor.
    - destruct (g_call ne op g) as [[r g2]| |] eqn:C; cbn [bind] in E; try discriminate.
      destruct (g_run ne g2 ops) as [[rs2 g3]| |] eqn:R; cbn [bind] in E; try discriminate. injection E as <- <-. inversion H; subst.
      destruct (IH _ _ _ H3 R) as [S1 (x & S2)]. cbn [flat_map map gpopped].
      assert (K : forall l, sum_count (map no_perc l) = sum_count l /\ flat_map ad_data (map no_perc l) = flat_map ad_data l).
      { induction l as [|a l [A B]]; simpl; auto. unfold sum_count in *. simpl. rewrite A, B. auto. }
      assert (Q : exists a b, reports r = map no_perc a ++ b /\ out_handler r = a /\
        (match op, out_ptr r with GoPop, Some a | GoForcePop, Some a => [a] | _, _ => [] end) = b).
      { destruct op; simpl in H2; try tauto.
        - destruct h; try tauto. exists (out_handler r), []. split; [|split; auto; destruct (out_ptr r); auto].
          cbn [g_call] in C. destruct (match x0 with SmScalar _ _ _ => _ | _ => _ end) as [[[b l] g4]| |]; cbn [bind] in C; try discriminate.
          injection C as <- <-. unfold reports. simpl. reflexivity.
        - exists (out_handler r), (match out_ptr r with Some a => [a] | None => [] end). split; [reflexivity|]. split; auto.
        - exists (out_handler r), (match out_ptr r with Some a => [a] | None => [] end). split; [reflexivity|]. split; auto. }
      destruct Q as (a & b & Q1 & Q2 & Q3). rewrite Q1, Q2. 
      replace (match op, out_ptr r with GoPop, Some a0 => [a0] | GoForcePop, Some a0 => [a0] | _, _ => [] end) with b by (rewrite <- Q3; destruct op; auto).
      rewrite !sum_count_app, !flat_map_app, (proj1 (K a)), (proj2 (K a)), S1, !sum_count_app. split; [lia|].
      exists x. rewrite flat_map_app in S2. rewrite <- !app_assoc. apply Permutation_app_head.
      rewrite app_assoc. apply Permutation_trans with (flat_map ad_data b ++ (flat_map ad_data (flat_map reports rs2) ++ x)); [rewrite <- app_assoc; apply Permutation_refl|].
      apply Permutation_trans with (flat_map ad_data b ++ (flat_map ad_data (flat_map out_handler rs2) ++ flat_map ad_data (gpopped ops (map out_ptr rs2)))); [apply Permutation_app_head; auto|].
      rewrite app_assoc. rewrite (app_assoc (flat_map ad_data (flat_map out_handler rs2)) (flat_map ad_data b)). apply Permutation_app_tail, Permutation_app_comm.
  Qed.
  Lemma conservation n ops outs m g p : 0 < so_step (ao_sep (ma_agg o)) -> Forall order_ok ops -> ma_run ne hash (ma_new o) ops = Ok (outs, m) -> ~ In (MDel n) ops ->
    Forall gop_typed (hist n ops) -> ma_get hash o m n = Some g -> g_current ne g = Ok p ->
    exists c rnd ts g0 rs, agg_new (ma_agg o) c rnd ts = Ok g0 /\ g_run ne g0 (hist n ops) = Ok (rs, g) /\
      let seen := of_name n (flat_map mrecs outs) in
      let acc := map snd (recorded (so_step (ao_sep (ma_agg o))) (so_res (ao_sep (ma_agg o))) true (hist n ops) (map out_bool rs)) in
      u64 (sum_count seen + match p with Some d => ad_count d | None => 0 end) = u64 (declared acc) /\
      submultiset (flat_map ad_data seen) (values acc).
  Proof.
    intros Hst O E ND HT G P. destruct (history n ops outs m g O E ND G) as (c & rnd & ts & g0 & rs & A & B & C).
    exists c, rnd, ts, g0, rs. split; auto. split; auto. cbv zeta. rewrite C.
    assert (NC : Forall gnot_clear (hist n ops)).
    { eapply Forall_impl; [|apply hist_push_pop]. intros op. destruct op; simpl; auto. }
    destruct (gcons ne Hne (ma_agg o) (hist n ops) g0 rs g p Hst (gnew_idle ne (ma_agg o) c rnd ts g0 Hst A) HT NC B P) as (K1 & K2 & _).
    assert (EN : g_enabled g0 = true).
    { unfold agg_new in A. destruct (sep_new _ _ _ _); cbn [bind] in A; try discriminate. now injection A as <-. }
    rewrite EN in *.
    assert (Q : quiet g).
    { pose proof (single_map ne hash o ops outs m Hpos O E) as S. apply run_quiet in S; [|intros x y; discriminate]. eapply S; eauto. }
    destruct Q as [Q1 Q2]. rewrite Q1, Q2, !app_nil_r in K1, K2.
    destruct (reports_sum (hist n ops) g0 rs g (hist_push_pop n ops) B) as [R1 (x & R2)]. rewrite R1. split; auto.
    destruct K2 as (y & K2). exists (x ++ y). rewrite app_assoc. eapply Permutation_trans; [|exact K2]. apply Permutation_app_tail. exact R2.
  Qed.
End Cons.
