(** The records a program receives are typed, finished records; sent on through the packer they arrive unchanged. *)
From Coq Require Import ZArith List Bool Permutation Lia Arith Ascii.
From Verif Require Import Base SortFacts ModelTypes ModelAvg ModelReducer SpecReducer ReducerProofs PubProofs ModelSeparator SpecSeparator SepProofs SepRun
  ModelAggregator SpecAggregator AggProofs AggRun ModelRegistry SpecRegistry ModelComposite ModelMeters ModelSystem SpecSystem
  ModelJson ModelPacker SpecPacker ModelCodec SpecCodec SpecWire LiftProofs.
Import ListNotations.
Local Open Scope Z_scope.

Section Ts.
  Variable ne : nat -> list Z -> list Z.
  Hypothesis Hne : nth_element_ok ne.
  Definition tsok (d : adata) : Prop := i64 (ad_ts d).

  Lemma loop_ts step ts fuel : forall next r recs r2 n2, sep_loop ne fuel step ts next r = Ok (recs, r2, n2) -> Forall tsok recs.
  Proof.
    induction fuel as [|f IH]; intros next r recs r2 n2 E; cbn [sep_loop] in E; destruct (next <=? ts); try discriminate; try (injection E as <- _ _; constructor).
    stp E. st E. st E. match type of E with bind ?x _ = _ => destruct x as [[[recs1 r3] n3]| |] eqn:EL; cbn [bind] in E; try discriminate E end.
    injection E as <- _ _. apply Forall_app. split; [|eauto]. destruct o as [x|]; [|injection F0 as <-; constructor].
    st F0. injection F0 as <-. apply chk_ok in F2 as [-> F2]. constructor; [exact F2|constructor].
  Qed.
  Lemma separate_ts c ts h f s b recs s' : Forall tsok (s_list s) -> s_separate ne c ts h f s = Ok (b, recs, s') -> Forall tsok recs /\ Forall tsok (s_list s').
  Proof.
    intros H E. unfold s_separate in E. st E. destruct (negb f && (a <? s_next s)); [injection E as _ <- <-; auto|].
    match type of E with bind ?x _ = _ => destruct x as [[[recs1 r3] n3]| |] eqn:EL; cbn [bind] in E; try discriminate E end.
    injection E as _ <- <-. apply loop_ts in EL. cbn [s_list]. destruct h; rewrite ?app_nil_r; auto. split; [constructor|]. apply Forall_app. auto.
  Qed.
  Lemma put_ts c1 c2 ts h f s b recs s' : Forall tsok (s_list s) -> s_put ne c1 c2 ts h f s = Ok (b, recs, s') -> Forall tsok recs /\ Forall tsok (s_list s').
  Proof.
    intros H E. unfold s_put in E. st E. destruct (s_separate ne c2 a h false s) as [[[bb r0] s1]| |] eqn:ES; cbn [bind] in E; try discriminate E.
    apply separate_ts in ES; auto. st E. destruct (a <? a0); injection E as _ <- <-; auto.
  Qed.
  Lemma finish_ts out a d : g_finish ne out a = Ok d -> tsok a -> tsok d.
  Proof. intros E H. apply (finish_fun ne Hne) in E as [E _]. unfold tsok, ad_ts in *. now rewrite E. Qed.
  Lemma finish_all_ts out l : forall ds, g_finish_all ne out l = Ok ds -> Forall tsok l -> Forall tsok ds.
  Proof.
    induction l as [|a l IH]; intros ds E H; cbn [g_finish_all] in E; [injection E as <-; constructor|]. st E. st E. injection E as <-.
    inversion H; subst. constructor; [eapply finish_ts; eauto|eauto].
  Qed.
  Definition gts (g : agg) : Prop := Forall tsok (g_list g) /\ Forall tsok (s_list (g_sep g)).
  Lemma aggregate0_ts g g' : gts g -> g_aggregate0_ ne g = Ok g' -> gts g'.
  Proof. intros [A B] E. unfold g_aggregate0_ in E. st E. injection E as <-. split; [|constructor]. cbn [g_list]. apply Forall_app. split; auto. eapply finish_all_ts; eauto. Qed.
  Lemma add_with_ts sadd g b g' : (forall s b recs s', Forall tsok (s_list s) -> sadd s = Ok (b, recs, s') -> Forall tsok recs /\ Forall tsok (s_list s')) ->
    gts g -> g_add_with ne sadd g = Ok (b, g') -> gts g'.
  Proof.
    intros HS [A B] E. unfold g_add_with in E. destruct (negb (g_enabled g)); [injection E as _ <-; split; auto|].
    destruct (sadd (g_sep g)) as [[[bb r0] s1]| |] eqn:ES; cbn [bind] in E; try discriminate E. apply HS in ES as [_ ES]; auto.
    destruct (negb bb); [injection E as _ <-; split; auto|]. st E. injection E as _ <-. eapply aggregate0_ts; [|eassumption]. split; auto.
  Qed.
  Lemma push_with_ts sadd spush h g b recs g' : (forall s b recs s', Forall tsok (s_list s) -> sadd s = Ok (b, recs, s') -> Forall tsok recs /\ Forall tsok (s_list s')) ->
    (forall s b recs s', Forall tsok (s_list s) -> spush s = Ok (b, recs, s') -> Forall tsok recs /\ Forall tsok (s_list s')) ->
    gts g -> g_push_with ne sadd spush h g = Ok (b, recs, g') -> Forall tsok recs /\ gts g'.
  Proof.
    intros HS HP G E. unfold g_push_with in E. destruct (negb (g_enabled g)); [injection E as _ <- <-; auto|].
    destruct (negb h); [stp E; injection E as _ <- <-; split; [constructor|exact (add_with_ts sadd g _ _ HS G F)]|].
    destruct (spush (g_sep g)) as [[[bb r0] s1]| |] eqn:ES; cbn [bind] in E; try discriminate E. apply HP in ES as [E1 E2]; [|apply G]. st E. injection E as _ <- <-.
    split; [eapply finish_all_ts; eauto|]. split; [apply G|exact E2].
  Qed.
  Lemma force_ts s x s' : Forall tsok (s_list s) -> s_force_pop ne s = Ok (x, s') -> (forall d, x = Some d -> tsok d) /\ Forall tsok (s_list s').
  Proof.
    intros G E. unfold s_force_pop, s_pop in E. destruct (s_list s) as [|a l] eqn:EL.
    - destruct (r_detach ne (s_red s)) as [[y r]| |]; cbn [bind] in E; try discriminate E. destruct y as [y|].
      + st E. injection E as <- <-. apply chk_ok in F as [-> F]. split; [intros d [= <-]; exact F|]. cbn [s_list]. rewrite ?EL. constructor.
      + injection E as <- <-. split; [discriminate|]. cbn [s_list]. rewrite ?EL. constructor.
    - injection E as <- <-. inversion G; subst. split; [intros d [= <-]|]; auto.
  Qed.
  Lemma call_ts op g r g' : gts g -> g_plain op -> g_call ne op g = Ok (r, g') -> gts g' /\ Forall tsok (out_handler r) /\ (forall d, out_ptr r = Some d -> tsok d).
  Proof.
    intros G [T PL] E. destruct op as [x c1 c2|x h c1 c2|ts h f c| | | |v|ts c]; cbn [g_call] in E; try contradiction.
    - stp E. injection E as <- <-. split; [|split; [constructor|discriminate]].
      destruct x; try discriminate F; eapply add_with_ts; try exact F; auto; intros *; apply put_ts.
    - match type of E with bind ?x _ = _ => destruct x as [[[bb rr] g1]| |] eqn:EP; cbn [bind] in E; try discriminate E end. injection E as <- <-. cbn [out_handler out_ptr].
      assert (X : Forall tsok rr /\ gts g1) by (destruct x; try discriminate EP; eapply push_with_ts; try exact EP; auto; intros *; apply put_ts).
      destruct X. split; auto. split; auto. discriminate.
    - match type of E with bind ?x _ = _ => destruct x as [[[bb rr] g1]| |] eqn:EP; cbn [bind] in E; try discriminate E end. injection E as <- <-. cbn [out_handler out_ptr].
      unfold g_separate in EP. match type of EP with bind ?x _ = _ => destruct x as [[[b1 r1] s1]| |] eqn:ES; cbn [bind] in EP; try discriminate EP end.
      st EP. injection EP as _ <- <-. apply separate_ts in ES as [E1 E2]; [|apply G]. split; [eapply aggregate0_ts; [|eassumption]; split; [apply G|exact E2]|]. split; auto. discriminate.
    - unfold g_pop in E. destruct (g_list g) as [|a l] eqn:EL; injection E as <- <-; cbn [out_handler out_ptr].
      + split; auto. split; [constructor|discriminate].
      + destruct G as [G1 G2]. rewrite EL in G1. inversion G1; subst. split; [split; auto|]. split; [constructor|]. intros d [= <-]. auto.
    - stp E. injection E as <- <-. cbn [out_handler out_ptr]. unfold g_force_pop in F. destruct G as [G1 G2].
      destruct (s_force_pop ne (g_sep g)) as [[x s9]| |] eqn:EF; cbn [bind] in F; try discriminate F. apply force_ts in EF as [X1 X2]; auto.
      destruct x as [y|]; [st F; injection F as <- <-|injection F as <- <-]; (split; [split; auto|]); (split; [constructor|]); [|discriminate].
      intros d [= <-]. eapply finish_ts; eauto.
    - injection E as <- <-. split; [exact G|]. split; [constructor|discriminate].
    - st E. injection E as <- <-. unfold g_clear in F. st F. injection F as <-. unfold s_clear in F0. st F0. st F0. injection F0 as <-.
      split; [split; constructor|]. split; [constructor|discriminate].
  Qed.
End Ts.

Lemma values_extremes w : incl (values w) (extremes w).
Proof.
  intros x H. unfold values in H. apply in_flat_map in H as (op & A & B). unfold extremes. apply in_flat_map. exists op. split; auto.
  unfold op_extremes. apply in_or_app. now left.
Qed.
Lemma fold_min_le l x : In x l -> fold_right Z.min i64_max l <= x.
Proof. induction l as [|y l IH]; [contradiction|]. intros [->|H]; simpl; [|specialize (IH H)]; lia. Qed.
Lemma fold_max_ge l x : In x l -> x <= fold_right Z.max i64_min l.
Proof. induction l as [|y l IH]; [contradiction|]. intros [->|H]; simpl; [|specialize (IH H)]; lia. Qed.
Lemma fold_min_typed l : Forall i64 l -> i64 (fold_right Z.min i64_max l).
Proof. induction 1 as [|x l [A B] F [C D]]; simpl; [unfold i64, i64_min, i64_max; lia|]. unfold i64. lia. Qed.
Lemma fold_max_typed l : Forall i64 l -> i64 (fold_right Z.max i64_min l).
Proof. induction 1 as [|x l [A B] F [C D]]; simpl; [unfold i64, i64_min, i64_max; lia|]. unfold i64. lia. Qed.
Lemma f64_cast_typed a z : f64_to_i64 a = Ok z -> i64 z.
Proof. unfold f64_to_i64. destruct a; try discriminate; [intros [= <-]; unfold i64, i64_min, i64_max; lia|]. intros E. apply chk_ok in E as [-> E]; exact E. Qed.
Lemma u64_typed z : 0 <= u64 z < two64.
Proof. unfold u64. apply Z.mod_pos_bound. reflexivity. Qed.

Lemma i64_int64 z : i64 z -> int64 z.
Proof. unfold i64, int64, i64_min, i64_max. lia. Qed.

(** A delivered record: its fields fit together, are typed, and its size obeys the options. *)
Lemma Forall2_right {A B} (R : A -> B -> Prop) (Q : B -> Prop) l m : (forall x y, R x y -> Q y) -> Forall2 R l m -> Forall Q m.
Proof. induction 2; constructor; eauto. Qed.

Section Rec.
  Variable ne : nat -> list Z -> list Z.
  Hypothesis Hne : nth_element_ok ne.
  Definition sized (o : aopts) (d : adata) : Prop :=
    (length (ad_data d) <= o_limit (so_red (ao_sep o)))%nat /\
    (ao_out o <> O -> length (ad_data d) <= ao_out o + ao_out o / 2)%nat.
  Definition recok (o : aopts) (d : adata) : Prop :=
    i64 (ad_ts d) /\ exists w grp, delivery_of ne (so_red (ao_sep o)) (ao_out o) w grp d.

  Lemma delivery_facts o w grp d : i64 (ad_ts d) -> delivery_of ne (so_red (ao_sep o)) (ao_out o) w grp d ->
    well_ordered d /\ sized o d /\ (forall n, push_typed (mk_push n d)).
  Proof.
    intros TS (a & (ops & a0 & HT & [HW _] & HP & ->) & FI). destruct (pub_inv ne Hne _ _ _ HT HP) as [PU NE].
    destruct PU as (_ & QP & QC & _ & QL & QMn & QMx & QA & QS & QN). pose proof (finished_sub _ _ _ FI) as SUB.
    pose proof (typed_extremes _ (window_typed _ HT)) as TE. set (ex := extremes (window ops)) in *.
    assert (IA : forall x, In x (ad_data a0) -> In x ex).
    { intros x Hx. apply values_extremes. destruct QS as [q Q]. eapply Permutation_in; [exact Q|]. apply in_or_app. now left. }
    destruct FI as (FI1 & FI2 & FI3 & FI4 & FI5).
    change (ad_data (ad_set_ts w a0)) with (ad_data a0) in *.
    assert (MN : ad_min d = ad_min a0) by (unfold ad_min; now rewrite FI1).
    assert (MX : ad_max d = ad_max a0) by (unfold ad_max; now rewrite FI1).
    assert (BND : forall x, In x (ad_data a0) -> ad_min d <= x <= ad_max d).
    { intros x Hx. rewrite MN, MX, QMn, QMx. split; [apply fold_min_le|apply fold_max_ge]; auto. }
    assert (TYD : forall x, In x (ad_data a0) -> i64 x) by (intros x Hx; eapply Forall_forall; [exact TE|auto]).
    assert (INC : forall x, In x (ad_data d) -> In x (ad_data a0)).
    { intros x Hx. destruct SUB as [q Q]. eapply Permutation_in; [exact Q|]. apply in_or_app. now left. }
    assert (EMP : ad_data d = [] -> ad_data a0 = []).
    { intros E0. destruct (ad_data a0) as [|x l] eqn:EA; auto. exfalso. rewrite E0 in FI5. cbn [length] in FI5. destruct FI5 as (T1 & T2 & T3).
      destruct (Nat.eq_dec (ao_out o) 0) as [EZ|NZ]; [specialize (T1 (or_introl EZ)); discriminate|].
      destruct (le_lt_dec (S (length l)) (ao_out o)); [specialize (T1 (or_intror l0)); discriminate|].
      destruct (le_lt_dec (2 * ao_out o) (S (length l))) as [Q|Q]; [specialize (T3 NZ Q); lia|]. specialize (T2 NZ l0 Q). lia. }
    assert (PC : ad_data a0 <> [] -> let p := ad_perc d in
      In (p50 p) (ad_data a0) /\ In (p80 p) (ad_data a0) /\ In (p95 p) (ad_data a0) /\ In (p99 p) (ad_data a0) /\ In (p100 p) (ad_data a0) /\
      p50 p <= p80 p /\ p80 p <= p95 p /\ p95 p <= p99 p /\ p99 p <= p100 p).
    { intros NEa. destruct (FI4 NEa) as [(R1 & R2 & R3 & R4) (R5 & R6 & _)]. cbv zeta. set (n := length (ad_data a0)) in *.
      repeat split; try (eapply rank_is_in; eassumption); auto.
      - apply (rank_is_mono (ad_data a0) (n * 50 / 100) (n * 80 / 100)); [apply Nat.div_le_mono; lia|exact R1|exact R2].
      - apply (rank_is_mono (ad_data a0) (n * 80 / 100) (n * 95 / 100)); [apply Nat.div_le_mono; lia|exact R2|exact R3].
      - apply (rank_is_mono (ad_data a0) (n * 95 / 100) (n * 99 / 100)); [apply Nat.div_le_mono; lia|exact R3|exact R4]. }
    split; [|split].
    - split; [apply Forall_forall; auto|]. split.
      + intros N. assert (NA : ad_data a0 <> []) by (intros E0; destruct (ad_data d) as [|x l]; [congruence|]; specialize (INC x (or_introl eq_refl)); rewrite E0 in INC; contradiction).
        destruct (PC NA) as (P1 & P2 & P3 & P4 & P5 & P6 & P7 & P8 & P9). pose proof (BND _ P1). pose proof (BND _ P5). repeat split; auto; lia.
      + intros E0. rewrite (FI3 (EMP E0)). exact QP.
    - assert (L0 : (length (ad_data a0) <= o_limit (so_red (ao_sep o)))%nat) by (rewrite QN; destruct (_ =? _)%nat; lia).
      destruct SUB as [q Q]. apply Permutation_length in Q. rewrite app_length in Q. split; [lia|]. intros NZ. destruct FI5 as (T1 & T2 & T3).
      set (n := length (ad_data a0)) in *. set (m := length (ad_data d)) in *.
      destruct (le_lt_dec n (ao_out o)); [specialize (T1 (or_intror l)); lia|].
      destruct (le_lt_dec (2 * ao_out o) n) as [X|X]; [apply (T3 NZ X)|]. specialize (T2 NZ l X). lia.
    - intros n. unfold push_typed. cbn [pu_data]. rewrite FI1.
      assert (TI : i64 (ad_min a0) /\ i64 (ad_max a0)) by (rewrite QMn, QMx; split; [apply fold_min_typed|apply fold_max_typed]; auto).
      assert (TA : i64 (ad_avg a0)) by (eapply f64_cast_typed; eassumption).
      assert (TS' : i64 (ad_ts (ad_set_ts w a0))) by (unfold ad_ts in *; rewrite <- FI1; exact TS).
      split; [|split].
      + unfold info_typed. change (ri_count (ad_info (ad_set_ts w a0))) with (ad_count a0). change (ri_lossy (ad_info (ad_set_ts w a0))) with (ad_lossy a0).
        split; [apply i64_int64; exact TS'|]. split; [rewrite QC; apply u64_typed|]. split; [exact QL|]. split; [apply i64_int64, TI|]. split; [apply i64_int64, TI|apply i64_int64, TA].
      + destruct (ad_data a0) as [|x l] eqn:EA.
        * rewrite (FI3 eq_refl). change (ad_perc (ad_set_ts w a0)) with (ad_perc a0). rewrite QP. unfold perc_typed, int64, perc0; cbn. lia.
        * rewrite <- EA in *. assert (NA : ad_data a0 <> []) by (rewrite EA; discriminate). destruct (PC NA) as (P1 & P2 & P3 & P4 & P5 & _).
          unfold perc_typed. auto 10 using i64_int64.
      + apply Forall_forall. intros x Hx. apply i64_int64. auto.
  Qed.

  Definition gok (o : aopts) (g : agg) : Prop :=
    gts g /\ exists a, ASim ne (so_red (ao_sep o)) (ao_out o) (so_step (ao_sep o)) (so_res (ao_sep o)) g a.
  Lemma gok_new o c rnd ts g : 0 < so_step (ao_sep o) -> agg_new o c rnd ts = Ok g -> gok o g.
  Proof.
    intros Hs E. split; [|eexists; eapply (new_asim ne); eauto]. unfold agg_new in E. st E. injection E as <-. split; [constructor|]. cbn [g_sep].
    unfold sep_new in F. repeat st F. injection F as <-. constructor.
  Qed.
  Lemma gok_call o op g r g' : 0 < so_step (ao_sep o) -> gok o g -> g_plain op -> g_call ne op g = Ok (r, g') ->
    gok o g' /\ Forall (recok o) (out_handler r) /\ (forall d, out_ptr r = Some d -> recok o d).
  Proof.
    intros Hs [T (a & SI)] PL E. destruct (call_ts ne Hne _ _ _ _ T PL E) as (T1 & T2 & T3).
    pose proof (gcall_sim ne Hne _ _ _ _ _ _ _ _ _ Hs SI (proj1 PL) E) as X. destruct (aspec_call _ _ op a) as [so a1]. destruct X as [X1 X2].
    split; [split; eauto|]. unfold gout_rel in X1. destruct X1 as (_ & X3 & X4). destruct PL as [_ PL]. split.
    - assert (GEN : Forall2 (drel ne (so_red (ao_sep o)) (ao_out o)) (po_handler so) (out_handler r) -> Forall (recok o) (out_handler r)).
      { intros Z0. assert (Z1 : Forall (fun d => exists w grp, delivery_of ne (so_red (ao_sep o)) (ao_out o) w grp d) (out_handler r))
          by (eapply Forall2_right; [|exact Z0]; intros q d Q; exists (fst q), (snd q); exact Q).
        apply Forall_forall. intros d Hd. split; [exact (proj1 (Forall_forall _ _) T2 d Hd)|exact (proj1 (Forall_forall _ _) Z1 d Hd)]. }
      destruct op as [x c1 c2|x h c1 c2|ts h f c| | | |v|ts c]; try contradiction; try (apply GEN; exact X3). cbn [g_call] in E.
      match type of E with bind ?x _ = _ => destruct x as [[[bb rr] g1]| |] eqn:EP; cbn [bind] in E; try discriminate E end. injection E as <- <-. cbn [out_handler].
      unfold g_separate in EP. match type of EP with bind ?x _ = _ => destruct x as [[[b1 r1] s1]| |] eqn:ES; cbn [bind] in EP; try discriminate EP end.
      st EP. injection EP as _ <- <-. subst h. unfold s_separate in ES. st ES. destruct (negb f && _); [injection ES as _ <- _; constructor|].
      match type of ES with bind ?x _ = _ => destruct x as [[[recs1 r3] n3]| |] eqn:EL; cbn [bind] in ES; try discriminate ES end. injection ES as _ <- _. constructor.
    - intros d Ed. split; [exact (T3 d Ed)|]. rewrite Ed in X4. destruct (po_ptr so) as [q|]; [|contradiction].
      exists (fst q), (snd q).
      destruct op; try contradiction; exact X4.
  Qed.
End Rec.

(** Nothing popped: everything received came through the handler. *)
Definition quiet (e : yev) : Prop :=
  match e with
  | LAnswer _ (RgCall _ GoPop) _ | LAnswer _ (RgCall _ GoForcePop) _ | LAnswer _ _ (RNamed _) => False
  | _ => True
  end.
Section Quiet.
  Variable ne : nat -> list Z -> list Z.
  Lemma quiet_handlers (l : list (name * adata)) : Forall quiet (map (fun q => LHandler (fst q) (snd q)) l).
  Proof. induction l; simpl; constructor; auto. exact I. Qed.
  Lemma quiet_ycall p d x cl s e s' : y_call ne p d x cl s = Ok (e, s') -> Forall quiet e.
  Proof.
    intros E. unfold y_call in E. stp E. st E. injection E as <- <-. unfold y_deliver in F0. destruct l as [|x0 l]; [injection F0 as <-; constructor|]. destruct d as [id|n].
    - destruct (y_alive _); [|discriminate]. injection F0 as <-. unfold w_deliver. destruct (rg_get_name id _) as [|ch m]; [constructor|]. apply quiet_handlers.
    - injection F0 as <-. apply Forall_forall. intros y Hy. destruct Hy as [<-|Hy]; [exact I|]. apply in_map_iff in Hy as (q & <- & _). exact I.
  Qed.
  Lemma quiet_report rp cl s e s' : y_report ne rp cl s = Ok (e, s') -> Forall quiet e.
  Proof.
    intros E. unfold y_report in E. destruct (nth_error (y_funs s) (rp_fun rp)) as [[p id|p to]|], (rp_sizes rp) as [[rd wr]|]; try discriminate.
    - eapply quiet_ycall; eauto.
    - stp E. stp E. stp E. injection E as <- <-. rewrite !Forall_app. split; [eapply quiet_ycall; eassumption|]. split; eapply quiet_ycall; eassumption.
  Qed.
  Lemma quiet_events cl es : forall s e s', y_events ne es cl s = Ok (e, s') -> Forall quiet e.
  Proof.
    induction es as [|x es IH]; intros s e s' E; cbn [y_events] in E; [injection E as <- <-; constructor|].
    stp E. stp E. injection E as <- <-. constructor; [exact I|]. apply Forall_app. split; [|eauto].
    destruct x; [injection F as <- <-; constructor| |injection F as <- <-; constructor]. eapply quiet_report; eauto.
  Qed.
  Lemma quiet_ydo op s e s' : unpopped op -> y_do ne op s = Ok (e, s') -> Forall quiet e.
  Proof.
    intros U E. destruct op as [id|en m now|id sum|order en m sum now|op0 cl|g|force clk|clk].
    5: { cbn [y_do] in E. destruct (y_typed op0 s); [|injection E as <- <-; constructor]. destruct (m_do op0 (y_pts s)) as [es pts]. eapply quiet_events; eauto. }
    all: cbn [y_do] in E; destruct (y_alive s); cbn [negb] in E; try discriminate E.
    - unfold y_meter_id in E. st E. destruct a; injection E as <- <-; repeat constructor.
    - unfold y_meter_name in E. stp E. unfold y_meter_id in E. st E. destruct a; injection E as <- <-; repeat constructor.
    - unfold y_comp_id in E. st E. destruct a; injection E as <- <-; repeat constructor.
    - unfold y_comp_name in E. stp E. destruct o; injection E as <- <-; repeat constructor.
    - stp E. injection E as <- <-. constructor; [|constructor].
      destruct g as [en n now|id op|en n d c1 c2|f clk|v|v|n|id|id h|en n h now|p x c1 c2]; cbn [rg_do] in F; try contradiction; try (destruct op; try contradiction); first [stp F|st F|idtac]; injection F as <- <-; exact I.
    - stp E. injection E as <- <-. apply Forall_app. split; [apply quiet_handlers|repeat constructor].
    - stp E. injection E as <- <-. apply quiet_handlers.
  Qed.
  Lemma quiet_yrun ops : forall s log s', Forall unpopped ops -> y_run ne s ops = Ok (log, s') -> Forall quiet log.
  Proof.
    induction ops as [|op ops IH]; intros s log s' U E; cbn [y_run] in E; [injection E as <- _; constructor|]. stp E. stp E. injection E as <- <-. inversion U; subst.
    apply Forall_app. split; [eapply quiet_ydo|eapply IH]; eauto.
  Qed.
End Quiet.
Lemma of_name_app n a b : of_name n (a ++ b) = of_name n a ++ of_name n b.
Proof. apply flat_map_app. Qed.
Lemma quiet_got n log : Forall quiet log -> got n log = of_name n (map as_push (handed_over log)).
Proof.
  induction 1 as [|e log Q F IH]; [reflexivity|]. unfold got, handed_over in *. cbn [flat_map]. rewrite map_app, of_name_app, <- IH. f_equal. clear - Q.
  destruct e as [f m s|e|m a|m op o|k]; try reflexivity.
  - unfold of_name. cbn. destruct (name_eqb m n); reflexivity.
  - cbn. destruct o; try (destruct op as [| ? []| | | | | | | | |]; simpl in Q; try contradiction; reflexivity).
Qed.
Lemma handed_received log : incl (map snd (handed_over log)) (received_all log).
Proof.
  intros d H. apply in_map_iff in H as ((n & a) & <- & H). unfold handed_over in H. apply in_flat_map in H as (e & A & B). unfold received_all. apply in_flat_map. exists e. split; auto.
  destruct e; try contradiction. destruct B as [[= -> ->]|[]]. now left.
Qed.
Lemma of_name_perm n a b : Permutation a b -> Permutation (of_name n a) (of_name n b).
Proof. induction 1 as [|x a b P IH|x y l|a b c P1 I1 P2 I2]; unfold of_name in *; cbn [flat_map]; auto.
  - now apply Permutation_app_head.
  - destruct (name_eqb (pu_name x) n), (name_eqb (pu_name y) n); simpl; auto using perm_swap.
  - now transitivity (flat_map (fun p => if name_eqb (pu_name p) n then [pu_data p] else []) b).
Qed.

(** The packer. *)
Lemma run_app_inv esc cs1 : forall p cs2 rs q, pk_run esc p (cs1 ++ cs2) = Some (rs, q) ->
  exists rs1 p1 rs2, pk_run esc p cs1 = Some (rs1, p1) /\ pk_run esc p1 cs2 = Some (rs2, q) /\ rs = rs1 ++ rs2.
Proof.
  induction cs1 as [|c cs1 IH]; intros p cs2 rs q E; cbn [app pk_run] in *; [exists [], p, rs; auto|].
  destruct (pk_do esc c p) as [[r p0]|]; [|discriminate]. destruct (pk_run esc p0 (cs1 ++ cs2)) as [[rs0 q0]|] eqn:E0; [|discriminate]. injection E as <- <-.
  destruct (IH _ _ _ _ E0) as (rs1 & p1 & rs2 & A & B & ->). exists (r :: rs1), p1, rs2. rewrite A. auto.
Qed.
Lemma no_pop_singles esc cs : forall p rs q, Forall no_pop cs -> pk_run esc p cs = Some (rs, q) -> flat_map singles rs = [].
Proof.
  induction cs as [|c cs IH]; intros p rs q N E; cbn [pk_run] in E; [injection E as <- _; reflexivity|]. inversion N; subst.
  destruct (pk_do esc c p) as [[r p0]|] eqn:ED; [|discriminate]. destruct (pk_run esc p0 cs) as [[rs0 q0]|] eqn:E0; [|discriminate]. injection E as <- <-.
  cbn [flat_map]. rewrite (IH _ _ _ H2 E0), app_nil_r. destruct c; try contradiction; cbn [pk_do] in ED.
  - destruct (pk_push esc r0 p); [|discriminate]. injection ED as <- _. reflexivity.
  - destruct (pk_pushes esc l p); [|discriminate]. injection ED as <- _. reflexivity.
  - destruct (pk_multi_pop esc p) as [[b p1]|]; [|discriminate]. injection ED as <- _. reflexivity.
  - destruct (pk_pushout esc p) as [[[n ms] p1]|]; [|discriminate]. injection ED as <- _. reflexivity.
Qed.
Lemma names_weight_app a b : names_weight (a ++ b) = names_weight a + names_weight b.
Proof. unfold names_weight. induction a as [|x a IH]; cbn [app fold_right]; [reflexivity|]. rewrite IH. lia. Qed.
Lemma names_weight_pos a : 0 <= names_weight a.
Proof. unfold names_weight. induction a as [|x a IH]; cbn [fold_right]; [lia|]. assert (0 <= zlen (pu_name x)) by apply Nat2Z.is_nonneg. lia. Qed.
Lemma names_weight_perm a b : Permutation a b -> names_weight a = names_weight b.
Proof. unfold names_weight. induction 1; cbn [fold_right]; lia. Qed.
Lemma sum_count_perm a b : Permutation a b -> sum_count a = sum_count b.
Proof. unfold sum_count. induction 1; simpl in *; lia. Qed.

Lemma yrun_snoc ne ops : forall s log s1 op e s2, y_run ne s ops = Ok (log, s1) -> y_do ne op s1 = Ok (e, s2) -> y_run ne s (ops ++ [op]) = Ok (log ++ e, s2).
Proof.
  induction ops as [|x ops IH]; intros s log s1 op e s2 E D; cbn [app y_run] in *.
  - injection E as <- <-. rewrite D. cbn [bind]. now rewrite app_nil_r.
  - stp E. stp E. injection E as <- <-. cbn [bind]. rewrite (IH _ _ _ _ _ _ F0 D). cbn [bind]. now rewrite app_assoc.
Qed.
Lemma destroy_typed ne clk s e s2 : y_do ne (YDestroy clk) s = Ok (e, s2) -> Forall ev_typed e.
Proof.
  intros E. cbn [y_do] in E. destruct (negb (y_alive s)); [discriminate|]. stp E. injection E as <- <-.
  apply Forall_forall. intros x Hx. apply in_map_iff in Hx as (q & <- & _). exact I.
Qed.
