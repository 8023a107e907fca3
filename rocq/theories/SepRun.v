(** Histories of separator calls: from the specification back to the model. *)
From Coq Require Import ZArith List Bool Permutation Lia Arith Sorted.
From Verif Require Import Base SortFacts ModelTypes ModelAvg ModelReducer SpecReducer ReducerProofs PubProofs
  ModelSeparator SpecSeparator SepProofs SepSpecProofs.
Import ListNotations.
Local Open Scope Z_scope.

Lemma Forall2_perm {A B} (R : A -> B -> Prop) l l' : Permutation l l' -> forall m', Forall2 R l' m' ->
  exists m, Permutation m m' /\ Forall2 R l m.
Proof.
  induction 1; intros m' H'.
  - inversion H'; subst. exists []. auto.
  - inversion H'; subst. destruct (IHPermutation _ H4) as (m & P & F). exists (y :: m). auto.
  - destruct m' as [|b1 [|b2 m']]; inversion H' as [|? ? ? ? R1 H1]; subst; inversion H1 as [|? ? ? ? R2 H2]; subst.
    exists (b2 :: b1 :: m'). split; [constructor|auto].
  - destruct (IHPermutation2 _ H') as (m1 & P1 & F1). destruct (IHPermutation1 _ F1) as (m & P & F).
    exists m. split; auto. etransitivity; eauto.
Qed.

Lemma Forall2_app3 {A B} (R : A -> B -> Prop) a b c x y z : Forall2 R a x -> Forall2 R b y -> Forall2 R c z ->
  Forall2 R (a ++ b ++ c) (x ++ y ++ z).
Proof. intros. repeat apply Forall2_app; auto. Qed.

Section NE.
  Variable ne : nat -> list Z -> list Z.
  Hypothesis Hne : nth_element_ok ne.
  Notation rel := (rel ne).
  Notation Sim := (Sim ne).

  Lemma new_sim o c rnd ts s : 0 < so_step o -> sep_new o c rnd ts = Ok s ->
    Sim (so_red o) (so_step o) (so_res o) s (mk_spec (sep_label s) [] []) /\ i64 (sep_label s) /\
    s_step s = so_step o /\ s_list s = [].
  Proof.
    intros Hs E. unfold sep_new in E.
    destruct (get_ts (so_step o) (so_res o) c ts) as [t| |] eqn:Et; cbn [bind] in E; try discriminate.
    apply get_ts_ok in Et as [-> It]; auto.
    match type of E with context[if ?b then ?x else ?y] => destruct (if b then x else y) as [t'| |] eqn:E' end;
      cbn [bind] in E; try discriminate.
    destruct (chk (t' + so_step o)) as [n| |] eqn:En; cbn [bind] in E; try discriminate.
    apply chk_ok in En as [-> In]. injection E as <-.
    assert (i64 t').
    { destruct (negb (so_soiled o =? 0)).
      - apply chk_ok in E' as [-> E']. auto.
      - injection E' as <-. auto. }
    unfold sep_label. simpl. replace (t' + so_step o - so_step o) with t' by lia.
    split; [|auto]. apply Sim_intro; simpl; auto. apply reach_new.
  Qed.

  (** * Simulation of histories *)
  Definition rel_peek (o : ropts) (op : sop) (q : option group) (a : option adata) : Prop :=
    match op with SoPeek => True | _ =>
      match q, a with None, None => True | Some q, Some a => rel o q a | _, _ => False end end.

  Lemma run_sim o step res ops : 0 < step -> Forall sop_typed ops -> forall s sp outs s',
    Sim o step res s sp -> s_run ne s ops = Ok (outs, s') ->
    let '(os, sp') := spec_run step res ops sp in
    Sim o step res s' sp' /\
    map po_bool os = map out_bool outs /\
    Forall2 (rel o) (flat_map po_handler os) (flat_map out_handler outs) /\
    Forall2 (rel o) (popped ops (map po_ptr os)) (popped ops (map out_ptr outs)).
  Proof.
    intros Hs. induction ops as [|op ops IH]; intros HT s sp outs s' SI E; simpl in E.
    - injection E as <- <-. simpl. split; [exact SI|]. auto.
    - destruct (s_call ne op s) as [[o1 s1]| |] eqn:E1; cbn [bind] in E; try discriminate.
      destruct (s_run ne s1 ops) as [[os2 s2]| |] eqn:E2; cbn [bind] in E; try discriminate.
      injection E as <- <-.
      pose proof (call_sim ne Hne o step res s sp op o1 s1 Hs SI (Forall_inv HT) E1) as C.
      simpl spec_run. destruct (spec_call step res op sp) as [so sp1]. destruct C as [(C1 & C2 & C3) C4].
      specialize (IH (Forall_inv_tail HT) s1 sp1 os2 s2 C4 E2).
      destruct (spec_run step res ops sp1) as [os sp2]. destruct IH as (I1 & I2 & I3 & I4).
      split; auto. split; [simpl; congruence|]. split; [simpl; now apply Forall2_app|].
      simpl. apply Forall2_app; auto.
      destruct (po_ptr so), (out_ptr o1), op; try contradiction; auto.
  Qed.

  Lemma rel_ts o l m : Forall2 (rel o) l m -> map ad_ts m = map fst l.
  Proof.
    induction 1 as [|q a l m H F IH]; simpl; auto. f_equal; auto.
    destruct H as (ops & a0 & _ & _ & _ & ->). reflexivity.
  Qed.

  (** What get_current reports on a reachable separator. *)
  Lemma open_peek o g r s p : reach ne o g r -> s_red s = r -> s_get_current ne s = Ok p ->
    match p with
    | None => g = []
    | Some a => g <> [] /\ ad_ts a = sep_label s /\
        exists b, record_of ne o (sep_label s) g b /\ same_summary a b
    end.
  Proof.
    intros R <- E. unfold s_get_current in E. assert (R' := R). destruct R as (ops & HO & HW & ER).
    pose proof (peek_same ne Hne o ops (s_red s) HO ER) as P.
    destruct (r_get_reduced ne (s_red s)) as [a| |] eqn:Eg; cbn [bind] in E; try discriminate.
    destruct (r_detach ne (s_red s)) as [[a' r1]| |] eqn:Ed; [|destruct a; contradiction|destruct a; contradiction].
    destruct (reach_detach ne Hne o _ _ a' r1 R' Ed) as [_ D].
    destruct g as [|x g].
    - destruct D as [-> _]. destruct a; [contradiction|]. now injection E as <-.
    - destruct D as (y & -> & D). destruct a as [z|]; [|contradiction].
      destruct (chk (s_next s - s_step s)) as [t| |] eqn:Et; cbn [bind] in E; try discriminate.
      apply chk_ok in Et as [-> _]. injection E as <-. split; [discriminate|]. split; [reflexivity|].
      exists (ad_set_ts (sep_label s) y). split; [apply D|]. exact P.
  Qed.

  Lemma idle_sim so s : 0 < so_step so -> idle ne so s ->
    Sim (so_red so) (so_step so) (so_res so) s (mk_spec (sep_label s) [] []).
  Proof.
    intros Hs (c & rnd & ts & s0 & ops & outs & E0 & HT & E & HL & HG).
    destruct (new_sim so c rnd ts s0 Hs E0) as (SI & _).
    pose proof (run_sim (so_red so) (so_step so) (so_res so) ops Hs HT s0 _ outs s SI E) as R.
    destruct (spec_run (so_step so) (so_res so) ops _) as [os sp]. destruct R as ((S1 & S2 & S3 & S4 & S5 & S6) & _).
    pose proof (open_peek _ _ _ _ _ S5 eq_refl HG) as G. simpl in G. rewrite G in S5. rewrite HL in S6.
    apply Sim_intro; simpl; auto.
    - unfold sep_label. lia.
    - rewrite HL. constructor.
  Qed.
  Lemma new_idle so c rnd ts s : 0 < so_step so -> sep_new so c rnd ts = Ok s -> idle ne so s.
  Proof.
    intros Hs E. exists c, rnd, ts, s, [], []. split; auto. split; [constructor|]. split; [reflexivity|].
    unfold sep_new in E. destruct (get_ts _ _ _ _); cbn [bind] in E; try discriminate.
    destruct (if negb (so_soiled so =? 0) then _ else _); cbn [bind] in E; try discriminate.
    destruct (chk _); cbn [bind] in E; try discriminate. injection E as <-. split; reflexivity.
  Qed.

  (** C14 *)
  Lemma group_run so ops s0 outs s : 0 < so_step so -> idle ne so s0 ->
    Forall sop_typed ops -> Forall regular ops -> Forall (coherent (so_step so) (so_res so)) ops ->
    s_run ne s0 ops = Ok (outs, s) ->
    let l0 := sep_label s0 in
    let acc := accepted (so_step so) (so_res so) ops (map out_bool outs) in
    let hs := flat_map out_handler outs in
    let ps := popped ops (map out_ptr outs) in
    sep_label s = fold_left Z.max (map (window_of l0 (so_step so)) (flat_map (shown_time (so_step so) (so_res so)) ops)) l0 /\
    reach ne (so_red so) (ops_in l0 (so_step so) (sep_label s) acc) (s_red s) /\
    StronglySorted Z.lt (map ad_ts hs) /\ StronglySorted Z.lt (map ad_ts (ps ++ s_list s)) /\
    exists closed recs,
      StronglySorted Z.lt (map fst closed) /\
      (forall w g, In (w, g) closed <-> g = ops_in l0 (so_step so) w acc /\ g <> [] /\ w < sep_label s) /\
      Forall2 (fun q a => record_of ne (so_red so) (fst q) (snd q) a) closed recs /\
      Permutation recs (hs ++ ps ++ s_list s).
  Proof.
    intros Hs E0 HT HR HC E. cbv zeta.
    pose proof (idle_sim so s0 Hs E0) as SI.
    set (l0 := sep_label s0) in *.
    pose proof (run_sim (so_red so) (so_step so) (so_res so) ops Hs HT s0 _ outs s SI E) as R.
    pose proof (GInv_run l0 (so_step so) (so_res so) ops Hs HR HC _ [] [] [] [] (GInv_init l0 (so_step so) [] eq_refl)) as G.
    destruct (spec_run (so_step so) (so_res so) ops (mk_spec l0 [] [])) as [os sp].
    destruct R as (R1 & R2 & R3 & R4). destruct G as (closed & G & M). simpl in G, M. rewrite R2 in G.
    destruct R1 as (T1 & T2 & T3 & T4 & T5 & T6).
    assert (EL : sep_label s = sp_cur sp) by (unfold sep_label; lia). rewrite EL.
    split; [exact M|]. destruct G as [Gc Ga Go Gs Gl Gi Gp Gh Gq]. split; [rewrite <- Go; exact T5|].
    split; [rewrite (rel_ts _ _ _ R3); exact Gh|].
    split.
    { assert (F : Forall2 (rel (so_red so)) (popped ops (map po_ptr os) ++ sp_queue sp)
                    (popped ops (map out_ptr outs) ++ s_list s)) by (now apply Forall2_app).
      rewrite (rel_ts _ _ _ F). exact Gq. }
    assert (F := Forall2_app3 _ _ _ _ _ _ _ R3 R4 T6).
    destruct (Forall2_perm _ _ _ Gp _ F) as (recs & P & F').
    exists closed, recs. auto.
  Qed.

  (** C17 *)
  Lemma rel_count o q a : rel o q a -> ad_count a = u64 (declared (snd q)).
  Proof.
    intros (ops & a0 & HT & [Hw _] & P & ->). rewrite <- Hw. unfold ad_count at 1. simpl.
    apply (pub_count ne Hne o ops a0 HT P).
  Qed.
  Lemma rel_sub o q a : rel o q a -> submultiset (ad_data a) (values (snd q)).
  Proof. intros (ops & a0 & HT & [Hw _] & P & ->). rewrite <- Hw. simpl. apply (pub_sub ne Hne o ops a0 HT P). Qed.

  Lemma declared_app a b : declared (a ++ b) = declared a + declared b.
  Proof. unfold declared. rewrite map_app. induction (map op_declared a); simpl; lia. Qed.
  Lemma declared_perm a b : Permutation a b -> declared a = declared b.
  Proof. intros P. unfold declared. induction P; simpl; lia. Qed.

  Lemma sum_count_rel o l m : Forall2 (rel o) l m -> u64 (sum_count m) = u64 (declared (all_ops l)).
  Proof.
    induction 1 as [|q a l m H F IH]; auto. unfold sum_count, all_ops. simpl.
    rewrite declared_app. rewrite (rel_count _ _ _ H). fold (sum_count m).
    unfold u64 in *. rewrite Z.add_mod_idemp_l by (unfold two64; lia).
    rewrite <- Z.add_mod_idemp_r, IH, Z.add_mod_idemp_r by (unfold two64; lia). reflexivity.
  Qed.

  Lemma peek_count o g r a : reach ne o g r -> r_get_reduced ne r = Ok a ->
    match a with Some x => ad_count x | None => 0 end = u64 (declared g).
  Proof.
    intros R E. assert (R' := R). destruct R as (ops & HO & HW & ER).
    pose proof (peek_same ne Hne o ops r HO ER) as P. rewrite E in P.
    destruct (r_detach ne r) as [[b r']| |] eqn:Ed; [|destruct a; contradiction|destruct a; contradiction].
    destruct (reach_detach ne Hne o g r b r' R' Ed) as [_ D]. destruct g.
    - destruct D as [-> _]. destruct a; [contradiction|]. reflexivity.
    - destruct D as (x & -> & D). destruct a as [y|]; [|contradiction].
      destruct P as (P & _). rewrite P. exact (rel_count o (0, r0 :: g) (ad_set_ts 0 x) (D 0)).
  Qed.

  Lemma submultiset_app (a b c d : list Z) : submultiset a c -> submultiset b d -> submultiset (a ++ b) (c ++ d).
  Proof.
    intros (r & P) (q & Q). exists (r ++ q). rewrite <- P, <- Q. rewrite <- !app_assoc. apply Permutation_app_head.
    rewrite !app_assoc. apply Permutation_app_tail. apply Permutation_app_comm.
  Qed.

  Lemma sub_rel o l m : Forall2 (rel o) l m -> submultiset (flat_map ad_data m) (values (all_ops l)).
  Proof.
    induction 1 as [|q a l m H F IH]; [exists []; constructor|].
    unfold all_ops. simpl. rewrite values_app. apply submultiset_app; auto. apply (rel_sub o _ _ H).
  Qed.

  Lemma values_perm a b : Permutation a b -> Permutation (values a) (values b).
  Proof. intros P. unfold values. now apply Permutation_flat_map. Qed.

  Lemma cons_sep so ops s0 outs s p : 0 < so_step so -> idle ne so s0 ->
    Forall sop_typed ops -> Forall not_clear ops ->
    s_run ne s0 ops = Ok (outs, s) -> s_get_current ne s = Ok p ->
    let acc := map snd (accepted (so_step so) (so_res so) ops (map out_bool outs)) in
    let out := flat_map out_handler outs ++ popped ops (map out_ptr outs) ++ s_list s in
    u64 (sum_count out + match p with Some a => ad_count a | None => 0 end) = u64 (declared acc) /\
    submultiset (flat_map ad_data out) (values acc) /\
    exists groups opn,
      Forall2 (fun q a => record_of ne (so_red so) (fst q) (snd q) a) groups out /\
      Permutation (flat_map snd groups ++ opn) acc.
  Proof.
    intros Hs E0 HT HN E EP. cbv zeta.
    pose proof (idle_sim so s0 Hs E0) as SI.
    pose proof (run_sim (so_red so) (so_step so) (so_res so) ops Hs HT s0 _ outs s SI E) as R.
    pose proof (cons_run (so_step so) (so_res so) ops HN (mk_spec (sep_label s0) [] [])) as G.
    destruct (spec_run (so_step so) (so_res so) ops (mk_spec (sep_label s0) [] [])) as [os sp].
    destruct R as (R1 & R2 & R3 & R4). simpl in G. rewrite R2 in G.
    destruct R1 as (T1 & T2 & T3 & T4 & T5 & T6).
    assert (F := Forall2_app3 _ _ _ _ _ _ _ R3 R4 T6).
    set (acc := map snd _) in *. set (out := flat_map out_handler outs ++ _) in *.
    set (grp := flat_map po_handler os ++ popped ops (map po_ptr os) ++ sp_queue sp) in *.
    assert (P : Permutation (all_ops grp ++ sp_open sp) acc).
    { rewrite <- G. unfold grp. rewrite !all_ops_app, <- !app_assoc. reflexivity. }
    split; [|split].
    - assert (C : match p with Some a => ad_count a | None => 0 end = u64 (declared (sp_open sp))).
      { unfold s_get_current in EP.
        destruct (r_get_reduced ne (s_red s)) as [a| |] eqn:Eg; cbn [bind] in EP; try discriminate.
        rewrite <- (peek_count (so_red so) _ _ _ T5 Eg).
        destruct a as [x|]; [|now injection EP as <-].
        destruct (chk _); cbn [bind] in EP; try discriminate. injection EP as <-. reflexivity. }
      rewrite C, <- (declared_perm _ _ P), declared_app. pose proof (sum_count_rel _ _ _ F) as U.
      unfold u64 in *. rewrite Z.add_mod_idemp_r by (unfold two64; lia).
      rewrite <- Z.add_mod_idemp_l, U, Z.add_mod_idemp_l by (unfold two64; lia). reflexivity.
    - eapply submultiset_trans; [exact (sub_rel _ _ _ F)|].
      exists (values (sp_open sp)). rewrite <- values_app. now apply values_perm; symmetry.
    - exists grp, (sp_open sp). auto.
  Qed.
End NE.
