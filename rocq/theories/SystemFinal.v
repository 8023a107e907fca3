(** What the runs of SystemRun say about a program from its start. *)
From Coq Require Import ZArith List Bool Permutation Lia Arith Ascii.
From Verif Require Import Base SortFacts ModelTypes ModelAvg ModelReducer SpecReducer ReducerProofs ModelSeparator SpecSeparator ModelAggregator SpecAggregator
  SepProofs SepSpecProofs SepRun AggProofs AggRun AggFinal ModelRegistry SpecRegistry RegProofs RegFinal
  ModelComposite ModelMeters ModelSystem SpecSystem SystemProofs SystemRun.
Import ListNotations.
Local Open Scope Z_scope.

Section Final.
  Variable ne : nat -> list Z -> list Z.
  Hypothesis Hne : nth_element_ok ne.
  Variable o : rgopts.
  Hypothesis Hs : 0 < so_step (ao_sep (rgo_agg o)).
  Hypothesis Hi : rgo_initializer o = false.
  Variable n : name.
  Hypothesis Hn : n <> [].

  Lemma start_ok N st mo h T : (st = true -> so_step (ao_sep (rgo_agg o)) <= T) -> SysOk ne o N st mo h n 0 (y_new o h) [] [] [] T.
  Proof.
    intros HT. split; auto. simpl. split; [|constructor]. split; [apply RInv_new|]. split; [lia|]. split; [exact Hi|]. split; auto.
    split; [|split; [|intros _ _; exact Logic.I]; exists []; split; [constructor|]; split; [reflexivity|]; split; [constructor|]; split; [exact Logic.I|]; intros _; split; [reflexivity|]; split; auto].
    exists [], [], []. split; [constructor|]. split; [reflexivity|]. split; [constructor|]. auto.
  Qed.
  Lemma run_ok st mo h ops log s : (mo = true -> h = true) -> (mo = true -> st = true) -> fits o (list_sum (map creations ops)) ->
    Forall (y_public o) ops -> y_run ne (y_new o h) ops = Ok (log, s) -> Forall ev_typed log ->
    (st = true -> Forall (kept n) ops /\ forward (so_step (ao_sep (rgo_agg o))) (flat_map (times o n) ops)) -> (mo = true -> Forall metered ops) ->
    exists k T, SysOk ne o (list_sum (map creations ops)) st mo h n k s (meters log) (samples n [] log) (got n log) T.
  Proof.
    intros H1 H2 F HP E HT HK HM.
    destruct (sys_run ne Hne o _ F Hs st mo h H1 n Hn H2 ops 0 (y_new o h) [] [] [] (so_step (ao_sep (rgo_agg o))) log s) as (k & _ & H); auto.
    - apply start_ok. lia.
    - eauto.
  Qed.
  Lemma sys_cell N st mo h k s tbl S G T : SysOk ne o N st mo h n k s tbl S G T ->
    exists c, cell_inv ne (rgo_agg o) st mo c (map sm_op S) G T /\ (y_alive s = true -> c = aggof o (y_reg s) n) /\
      (hist ne (rgo_agg o) st c S G /\ ord st mo c G) /\ (y_alive s = false -> c = None).
  Proof.
    intros (_ & H). destruct (y_alive s).
    - destruct H as ((_ & _ & _ & _ & H1 & H2) & _). exists (aggof o (y_reg s) n). split; auto. split; auto. split; auto. discriminate.
    - destruct H as (_ & _ & H1 & H2). exists None. split; auto. split; [congruence|]. auto.
  Qed.
  Lemma sent_samples log : forall tbl, map sm_op (samples n tbl log) = sent n tbl log.
  Proof.
    induction log as [|e log IH]; intros tbl; auto. cbn [samples sent]. rewrite map_app, IH. f_equal.
    destruct e as [| [|r|]| |m [] |]; auto.
    - destruct (nth_error tbl (rp_fun r)) as [m|]; auto. unfold measured_at, measured. rewrite map_app. destruct (rp_sizes r) as [[rd wr]|]; rewrite ?map_app;
        destruct (name_eqb _ n); simpl; auto; destruct (name_eqb _ n); simpl; auto; destruct (name_eqb _ n); simpl; auto.
    - destruct op; auto. now destruct (name_eqb m n).
    - now destruct (name_eqb m n).
  Qed.

  Lemma sent_typed log : Forall ev_typed log -> forall tbl, Forall op_typed (sent n tbl log).
  Proof.
    induction 1 as [|e log HE _ IH]; intros tbl; [constructor|]. cbn [sent]. apply Forall_app. split; auto.
    destruct e as [| [|r|]| |m [] |]; try constructor; simpl in HE.
    - destruct (nth_error tbl (rp_fun r)) as [m|]; [|constructor]. unfold measured. destruct HE as [H1 H2]. apply Forall_app. split.
      + destruct (name_eqb _ n); [constructor; [exact H1|constructor]|constructor].
      + destruct (rp_sizes r) as [[rd wr]|]; [|constructor]. destruct H2 as [H2 H3].
        apply Forall_app. split; (destruct (name_eqb _ n); [constructor; [|constructor]|constructor]); (apply typed_add; [apply to_i64_range|]); destruct (snd m); auto; apply H1.
    - destruct op; try constructor. destruct (name_eqb m n); [constructor; [exact HE|constructor]|constructor].
    - destruct (name_eqb m n); [constructor; [exact HE|constructor]|constructor].
  Qed.
  Lemma declared_nonneg w : Forall op_typed w -> 0 <= declared w.
  Proof. induction 1 as [|x w [_ H] _ IH]; [unfold declared; simpl; lia|]. unfold declared in *. simpl. unfold is_u64 in H. lia. Qed.
  Lemma Forall_perm_app {A} (P : A -> Prop) a b c : Permutation (a ++ b) c -> Forall P c -> Forall P a /\ Forall P b.
  Proof. intros H HF. apply Forall_app. eapply Permutation_Forall; [symmetry; exact H|exact HF]. Qed.
  Lemma counts_below groups l : Forall2 (wrel ne (so_red (ao_sep (rgo_agg o)))) groups l -> Forall op_typed (all_ops groups) ->
    sum_count l <= declared (all_ops groups).
  Proof.
    induction 1 as [|q d groups l H _ IH]; intros HT; [unfold sum_count, declared; simpl; lia|].
    unfold all_ops in *. simpl in *. apply Forall_app in HT as [T1 T2]. rewrite declared_app. unfold sum_count in *. simpl. specialize (IH T2).
    rewrite (wrel_count ne Hne _ _ _ H). unfold u64. pose proof (declared_nonneg _ T1). pose proof (Z.mod_le (declared (snd q)) two64 ltac:(lia) ltac:(unfold two64; lia)). lia.
  Qed.
  Lemma records_intro groups l : Forall2 (wrel ne (so_red (ao_sep (rgo_agg o)))) groups l -> records_of ne o (all_ops groups) l.
  Proof. intros H. exists groups. split; auto. Qed.

  Lemma invented h ops log s : fits o (list_sum (map creations ops)) -> Forall (y_public o) ops ->
    y_run ne (y_new o h) ops = Ok (log, s) -> Forall ev_typed log ->
    (exists w lost, records_of ne o w (got n log) /\ Permutation (w ++ lost) (sent n [] log)) /\
    submultiset (flat_map ad_data (got n log)) (values (sent n [] log)) /\
    sum_count (got n log) <= declared (sent n [] log).
  Proof.
    intros F HP E HT. destruct (run_ok false false h ops log s) as (k & T & H); auto; try discriminate.
    destruct (sys_cell _ _ _ _ _ _ _ _ _ _ H) as (c & (groups & lost & held & FA & _ & P & _) & _). rewrite sent_samples in P.
    pose proof (sent_typed log HT []) as ST. destruct (Forall_perm_app _ _ _ _ P ST) as [S1 S2].
    split; [|split].
    - exists (all_ops groups), (held ++ lost). split; [apply records_intro|]; auto.
    - eapply submultiset_trans; [exact (wsub ne Hne _ _ _ FA)|]. exists (values (held ++ lost)). rewrite <- values_app.
      apply values_perm. exact P.
    - rewrite <- (declared_perm _ _ P), declared_app. pose proof (counts_below _ _ FA S1). pose proof (declared_nonneg _ S2). lia.
  Qed.

  Lemma conserved h ops log s : fits o (list_sum (map creations ops)) -> Forall (y_public o) ops -> Forall (kept n) ops ->
    forward (so_step (ao_sep (rgo_agg o))) (flat_map (times o n) ops) ->
    y_run ne (y_new o h) ops = Ok (log, s) -> Forall ev_typed log ->
    exists w held, records_of ne o w (got n log) /\ Permutation (w ++ held) (sent n [] log) /\
      ((forall id sn g, ~ registered (y_reg s) n id sn g) -> held = []) /\
      forall id sn g p, registered (y_reg s) n id sn g -> g_current ne g = Ok p ->
        exists wq opn, held = wq ++ opn /\ records_of ne o wq (g_list g ++ s_list (g_sep g)) /\
          match p with Some d => ad_count d | None => 0 end = u64 (declared opn) /\
          u64 (sum_count (got n log) + sum_count (g_list g ++ s_list (g_sep g)) + match p with Some d => ad_count d | None => 0 end)
            = u64 (declared (sent n [] log)).
  Proof.
    intros F HP HK HF E HT. destruct (run_ok true false h ops log s) as (k & T & H); auto; try discriminate.
    destruct (sys_cell _ _ _ _ _ _ _ _ _ _ H) as (c & (groups & lost & held & FA & HC & P & HL) & HA & _ & _). rewrite sent_samples in P.
    assert (A : y_alive s = true). { destruct H as (_ & H). destruct (y_alive s); auto. destruct H; discriminate. }
    rewrite (HA A) in HC. destruct (HL eq_refl) as [-> _]. rewrite app_nil_r in P. clear HL HA.
    destruct H as (_ & H). rewrite A in H. destruct H as ((I & Hk & _) & _).
    exists (all_ops groups), held. split; [apply records_intro; auto|]. split; auto. split.
    - intros NR. unfold aggof in HC. destruct (slot o (y_reg s) n) as [[[id sn] g]|] eqn:ES; auto.
      exfalso. apply (NR id sn g). apply (registered_slot o _ F k _ _ _ _ _ I Hk). auto.
    - intros id sn g p R EP. apply (registered_slot o _ F k _ _ _ _ _ I Hk) in R as [_ R]. unfold aggof in HC. rewrite R in HC.
      destruct HC as (a & (AS & _) & -> & _). unfold aheld in *.
      pose proof AS as ((T1 & T2 & T3 & T4 & T5 & T6) & Q & _).
      assert (WQ := Forall2_impl _ _ _ _ (fun q d H => drel_w ne _ _ q d H) Q).
      assert (WS := Forall2_impl _ _ _ _ (fun q d H => rel_w ne _ q d H) T6).
      assert (FQ := Forall2_app WQ WS). pose proof (gcurrent_count ne Hne _ _ _ _ _ _ _ AS EP) as GC.
      exists (all_ops (as_q a ++ sp_queue (as_sp a))), (sp_open (as_sp a)).
      split; [now rewrite all_ops_app, <- app_assoc|]. split; [apply records_intro; auto|]. split; auto.
      rewrite GC, <- (declared_perm _ _ P), !declared_app. pose proof (wsum_count ne Hne _ _ _ FA) as U1. pose proof (wsum_count ne Hne _ _ _ FQ) as U2.
      rewrite all_ops_app, declared_app in U2. unfold u64 in *.
      rewrite Z.add_mod_idemp_r by (unfold two64; lia).
      rewrite <- (Z.add_mod_idemp_l (sum_count _ + sum_count _)) by (unfold two64; lia).
      rewrite (Z.add_mod (sum_count _) (sum_count _)) by (unfold two64; lia). rewrite U1, U2, <- Z.add_mod by (unfold two64; lia).
      rewrite Z.add_mod_idemp_l by (unfold two64; lia). f_equal. lia.
  Qed.

  Lemma named_once (l : list (name * adata)) : NoDup (map fst l) ->
    flat_map (fun q : name * adata => if name_eqb (fst q) n then [snd q] else []) l = match m_find name_eqb n l with Some x => [x] | None => [] end.
  Proof.
    induction l as [|[m x] l' IH]; intros ND; auto. simpl. inversion ND; subst. specialize (IH H2). rewrite IH.
    destruct (name_eqb_spec m n) as [->|NE].
    - rewrite name_eqb_refl. simpl. destruct (m_find name_eqb n l') as [x0|] eqn:EF; auto. apply (m_find_In n x0 l' H2) in EF. exfalso. apply H1. now apply (in_map fst) in EF.
    - destruct (name_eqb_spec n m); [congruence|]. reflexivity.
  Qed.
  Lemma complete ops log s clk log2 s2 : fits o (list_sum (map creations ops)) -> Forall (y_public o) ops -> Forall (kept n) ops -> Forall metered ops ->
    forward (so_step (ao_sep (rgo_agg o))) (flat_map (times o n) ops) ->
    y_run ne (y_new o true) ops = Ok (log, s) -> Forall ev_typed log ->
    (forall id sn g, registered (y_reg s) n id sn g -> not_due ne (clk n) g) -> y_do ne (YDestroy clk) s = Ok (log2, s2) ->
    (exists w, records_of ne o w (got n (log ++ log2)) /\ Permutation w (sent n [] log)) /\
    u64 (sum_count (got n (log ++ log2))) = u64 (declared (sent n [] log)).
  Proof.
    intros F HP HK HM HF E HT ND ED. destruct (run_ok true true true ops log s) as (k & T & H); auto.
    destruct (sys_cell _ _ _ _ _ _ _ _ _ _ H) as (c & (groups & lost & held & FA & HC & P & HL) & HA & _ & _). rewrite sent_samples in P.
    destruct H as (HW & H). assert (A : y_alive s = true). { destruct (y_alive s); auto. destruct H; discriminate. }
    rewrite (HA A) in HC. destruct (HL eq_refl) as [-> _]. rewrite app_nil_r in P. clear HL HA.
    rewrite A in H. destruct H as ((I & Hk & _) & _). cbn [y_do] in ED. rewrite A in ED. cbn [negb] in ED. unfold w_pushout in ED.
    destruct (rg_pop_all ne true clk (w_reg (y_wrt s))) as [[l r1]| |] eqn:EC; cbn [bind] in ED; try discriminate.
    rewrite HW in ED. cbn [bind] in ED. injection ED as <- _.
    destruct (pop_all_spec ne o _ F true clk k _ l r1 I Hk EC) as (_ & _ & _ & _ & NDU & SL). specialize (SL n).
    assert (GM : got n (map (fun q => LHandler (fst q) (snd q)) l) = match m_find name_eqb n l with Some x => [x] | None => [] end).
    { rewrite <- (named_once l NDU). unfold got. now rewrite flat_map_concat_map, map_map, <- flat_map_concat_map. }
    assert (X : exists gr, Forall2 (wrel ne (so_red (ao_sep (rgo_agg o)))) gr (got n (map (fun q => LHandler (fst q) (snd q)) l)) /\ Permutation (all_ops gr) held).
    { rewrite GM. unfold aggof in HC. fold (y_reg s) in SL. destruct (slot o (y_reg s) n) as [[[id sn] g]|] eqn:ES.
      - destruct SL as (g' & _ & SP). apply popped_taken in SP. apply flush_not_due in SP.
        2: { apply (ND id sn). apply (registered_slot o _ F k _ _ _ _ _ I Hk). auto. }
        destruct SP as (out & EF & EO). destruct HC as (a & AL & -> & HQ). destruct (HQ eq_refl) as [Q1 Q2].
        destruct (call_core ne Hne (rgo_agg o) Hs true GoForcePop g a T out g' AL Logic.I Logic.I EF) as (a1 & gr & miss & EA & _ & F1 & P1 & M1); [split; exact Logic.I|].
        rewrite (M1 eq_refl) in P1. simpl in P1. rewrite !app_nil_r in P1. simpl in EA. unfold aheld in *. rewrite Q1, Q2 in *. subst a1. simpl in P1.
        rewrite Q1, app_nil_r in P1. simpl in P1. simpl op_got in F1. rewrite EO in F1.
        exists gr. split; [exact F1|]. rewrite <- P1. reflexivity.
      - destruct SL as (_ & ->). subst held. exists []. split; constructor. }
    destruct X as (gr & FG & EG). assert (FF := Forall2_app FA FG). rewrite <- (got_app n) in FF. split.
    - exists (all_ops (groups ++ gr)). split; [apply records_intro; auto|]. rewrite all_ops_app. rewrite EG. auto.
    - rewrite (wsum_count ne Hne _ _ _ FF), all_ops_app. f_equal. apply declared_perm. rewrite EG. auto.
  Qed.

  (** ** Names of meters *)
  Lemma meter_named N h k s tbl S G T e m now l s' : fits o N -> (k < N)%nat -> SysOk ne o N false false h n k s tbl S G T -> y_alive s = true ->
    y_do ne (YMeterName e m now) s = Ok (l, s') ->
    l = [match m with [] => LMeter None (fun _ => []) false | _ => LMeter (Some (length (y_funs s))) (one_name m) false end].
  Proof.
    intros F Hk H A E. cbn [y_do] in E. rewrite A in E. cbn [negb] in E. unfold y_meter_name in E.
    destruct (sys_alive _ _ _ _ _ _ _ _ _ _ _ _ _ H A) as [HW R].
    destruct (rg_create ne e m now (y_reg s)) as [[id r]| |] eqn:EC; cbn [bind] in E; try discriminate.
    destruct (R_create ne Hne o N F Hs false false n Hn k _ S G T e m now id r R Hk EC) as (k1 & L1 & R1 & V1 & K1 & B1 & O1); [discriminate|].
    unfold y_meter_id in E. change (y_reg (y_set_reg r s)) with r in E. change (y_funs (y_set_reg r s)) with (y_funs s) in E.
    destruct m as [|z m].
    - rewrite (B1 eq_refl), bad_pusher in E. cbn [bind] in E. now injection E as <- _.
    - destruct (O1 ltac:(discriminate)) as [sn OB].
      destruct (rg_pusher id (y_has id (y_set_reg r s)) r) as [q| |] eqn:EQ; cbn [bind] in E; try discriminate.
      destruct R1 as (I1 & R1). destruct (obj_named o k1 r _ id sn I1 OB) as [GN _]. rewrite GN in E.
      assert (NB : id <> bad_id). { intros ->. pose proof (name_bad o N F k1 r I1 (proj1 R1)). congruence. }
      rewrite (y_has_hh h id (y_set_reg r s) HW NB) in EQ.
      destruct (pusher_new ne o N F false false h n k1 r S G _ (z :: m) id sn q (conj I1 R1) OB EQ) as (_ & p & -> & _).
      now injection E as <- _.
  Qed.
  Lemma composite_named N h k s tbl S G T order e m sum now l s' : fits o N -> (k + length order <= N)%nat -> SysOk ne o N false false h n k s tbl S G T ->
    y_alive s = true -> (forall x, In x order) -> y_do ne (YCompName order e m sum now) s = Ok (l, s') ->
    exists e, l = [e] /\ meter_for e m sum.
  Proof.
    intros F Hk H A HO E. cbn [y_do] in E. rewrite A in E. cbn [negb] in E. unfold y_comp_name, rg_composite_name in E.
    destruct (sys_alive _ _ _ _ _ _ _ _ _ _ _ _ _ H A) as [HW R].
    destruct (create_roles ne order e m now (y_reg s)) as [[ids r]| |] eqn:EC; cbn [bind] in E; try discriminate.
    destruct (rg_composite (ids RoTime) (ids RoRead) (ids RoWrite) _ _ _ sum r) as [q| |] eqn:EQ; cbn [bind] in E; try discriminate.
    destruct (roles_ok ne Hne o N F Hs false false n Hn order e m now k _ S G T ids r R Hk EC) as (k1 & L1 & R1 & V1 & K1 & O1); [discriminate|].
    rewrite HW in EQ.
    assert (X : forall x p, rg_pusher (ids x) h r = Ok p -> (p = None <-> m x = [])).
    { intros x p EP. destruct (O1 x) as [[OB NX]|(NX & sn & OB)].
      - rewrite OB, bad_pusher in EP. injection EP as <-. split; auto.
      - destruct (pusher_new ne o N F false false h n k1 r S G _ (m x) (ids x) sn p R1 OB EP) as (_ & p' & -> & _). split; [discriminate|contradiction]. }
    unfold rg_composite in EQ.
    destruct (rg_pusher (ids RoTime) h r) as [t| |] eqn:E1; cbn [bind] in EQ; try discriminate.
    destruct (rg_pusher (ids RoRead) h r) as [rd| |] eqn:E2; cbn [bind] in EQ; try discriminate.
    destruct (rg_pusher (ids RoWrite) h r) as [w| |] eqn:E3; cbn [bind] in EQ; try discriminate.
    apply X in E1, E2, E3. destruct q as [p|].
    - assert (p = mk_cpusher t rd w sum) as -> by (destruct t, rd, w; congruence).
      injection E as <- _. eexists. split; [reflexivity|]. split; [|split].
      + unfold named_by. intros []; simpl; [destruct t|destruct rd|destruct w]; auto; symmetry; intuition.
      + split; [discriminate|]. intros HX. exfalso. apply proj2 in E1, E2, E3. rewrite (E1 (HX _)), (E2 (HX _)), (E3 (HX _)) in EQ. discriminate.
      + auto.
    - injection E as <- _. assert (t = None /\ rd = None /\ w = None) as (-> & -> & ->) by (destruct t, rd, w; try discriminate; auto).
      assert (Y : forall x, m x = []) by (intros []; intuition).
      eexists. split; [reflexivity|]. split; [intros x; symmetry; apply Y|]. split; [tauto|congruence].
  Qed.

  (** The same after any program. *)
  Lemma after_run N h ops log s : fits o N -> Forall (y_public o) ops -> y_run ne (y_new o h) ops = Ok (log, s) -> Forall ev_typed log ->
    (list_sum (map creations ops) <= N)%nat ->
    exists k tbl S G T, (k <= list_sum (map creations ops))%nat /\ SysOk ne o N false false h n k s tbl S G T.
  Proof.
    intros F HP E HT HN. destruct (sys_run ne Hne o N F Hs false false h (fun H => ltac:(discriminate)) n Hn (fun H => ltac:(discriminate)) ops 0 (y_new o h) [] [] [] 0 log s) as (k & L & H);
      auto; try discriminate; [apply start_ok; discriminate|]. do 5 eexists. split; [exact L|exact H].
  Qed.
  Lemma one_null m : (forall x, one_name m x = []) <-> m = [].
  Proof. split; [intros H; exact (H RoTime)|intros -> []; reflexivity]. Qed.
  Lemma meter_alive op s e s' : y_do ne op s = Ok (e, s') -> (exists en m now, op = YMeterName en m now) \/ (exists od en m b now, op = YCompName od en m b now) -> y_alive s' = true.
  Proof.
    intros E X. assert (A : y_alive s = true). { destruct X as [(en & m & now & ->)|(od & en & m & b & now & ->)]; cbn [y_do] in E; destruct (y_alive s); simpl in E; congruence. }
    destruct X as [(en & m & now & ->)|(od & en & m & b & now & ->)]; cbn [y_do] in E; rewrite A in E; cbn [negb] in E.
    - unfold y_meter_name, y_meter_id in E. destruct (rg_create _ _ _ _ _) as [[id r]| |]; cbn [bind] in E; try discriminate.
      destruct (rg_pusher _ _ _) as [[q|]| |]; cbn [bind] in E; try discriminate; injection E as _ <-; auto.
    - unfold y_comp_name in E. destruct (rg_composite_name _ _ _ _ _ _ _ _) as [[[p|] r]| |]; cbn [bind] in E; try discriminate; injection E as _ <-; auto.
  Qed.
  Lemma multi_named N h m : fits o N -> forall ps es k s tbl S G T l s', SysOk ne o N false false h n k s tbl S G T -> y_alive s = true ->
    (k + length ps <= N)%nat -> length es = length ps -> y_run ne s (y_multi ps m es) = Ok (l, s') ->
    Forall2 (fun p e => meter_for e (one_name (p ++ m)) false) ps l.
  Proof.
    intros F. induction ps as [|p ps IH]; intros es k s tbl S G T l s' H A HN HL E; destruct es as [|[en now] es]; try discriminate.
    - injection E as <- _. constructor.
    - unfold y_multi in E. cbn [combine map y_run fst snd] in E.
      destruct (y_do ne (YMeterName en (p ++ m) now) s) as [[e1 s1]| |] eqn:E1; cbn [bind] in E; try discriminate.
      fold (y_multi ps m es) in E. destruct (y_run ne s1 (y_multi ps m es)) as [[e2 s2]| |] eqn:E2; cbn [bind] in E; try discriminate. injection E as <- _.
      simpl in HN, HL. pose proof (meter_named N h k s tbl S G T en (p ++ m) now e1 s1 F ltac:(lia) H A E1) as EL.
      destruct (sys_do ne Hne o N F Hs false false h (fun H => ltac:(discriminate)) n Hn (fun H => ltac:(discriminate)) k s tbl S G T _ e1 s1 H E1) as (k1 & L1 & H1);
        try discriminate; [exact Logic.I|rewrite EL; destruct (p ++ m); repeat constructor|simpl; lia|].
      simpl in L1. assert (A1 : y_alive s1 = true) by (eapply meter_alive; eauto).
      rewrite EL. cbn [app]. constructor; [|eapply IH; [exact H1|auto| |auto|exact E2]; lia].
      destruct (p ++ m) as [|c q] eqn:EN; unfold meter_for; rewrite one_null; (split; [try (intros []; reflexivity); reflexivity|]); split; try congruence; split; congruence.
  Qed.
  Lemma comp_multi_named N h m sum : fits o N -> forall ps es k s tbl S G T l s', SysOk ne o N false false h n k s tbl S G T -> y_alive s = true ->
    (k + list_sum (map (fun q => length (fst (fst q))) es) <= N)%nat -> length es = length ps -> Forall (fun q => forall x, In x (fst (fst q))) es ->
    y_run ne s (y_comp_multi ps m sum es) = Ok (l, s') ->
    Forall2 (fun p e => meter_for e (fun x => match m x with [] => [] | _ => p ++ m x end) sum) ps l.
  Proof.
    intros F. induction ps as [|p ps IH]; intros es k s tbl S G T l s' H A HN HL HO E; destruct es as [|[[od en] now] es]; try discriminate.
    - injection E as <- _. constructor.
    - unfold y_comp_multi in E. cbn [combine map y_run fst snd] in E. set (op := YCompName od en (fun x => make_name p (m x)) sum now) in E.
      destruct (y_do ne op s) as [[e1 s1]| |] eqn:E1; cbn [bind] in E; try discriminate.
      fold (y_comp_multi ps m sum es) in E. destruct (y_run ne s1 (y_comp_multi ps m sum es)) as [[e2 s2]| |] eqn:E2; cbn [bind] in E; try discriminate. injection E as <- _.
      cbn [map list_sum fold_right fst] in HN. fold (list_sum (map (fun q : list role * (role -> cenv) * Z => length (fst (fst q))) es)) in HN. simpl in HL. inversion HO as [|? ? HO1 HO2]; subst. cbn [fst] in HO1.
      destruct (composite_named N h k s tbl S G T od en _ sum now e1 s1 F ltac:(lia) H A HO1 E1) as (e & -> & M).
      destruct (sys_do ne Hne o N F Hs false false h (fun H => ltac:(discriminate)) n Hn (fun H => ltac:(discriminate)) k s tbl S G T _ [e] s1 H E1) as (k1 & L1 & H1);
        try discriminate; [exact Logic.I|destruct e; try contradiction; repeat constructor|simpl; lia|].
      simpl in L1. assert (A1 : y_alive s1 = true) by (eapply meter_alive; [exact E1|right; unfold op; eauto 6]).
      cbn [app]. constructor; [exact M|apply (IH es k1 s1 _ _ _ _ e2 s2 H1 A1); auto; lia].
  Qed.
End Final.

(** ** Points live on *)
Definition well_kept (s : sys) : Prop := forall i p, m_get i (y_pts s) = Some p -> fits_kind (y_funs s) (p_kind p) (p_fun p) = true.
Definition report_fits (funs : list mfun) (r : report) : Prop :=
  match nth_error funs (rp_fun r), rp_sizes r with Some (FOne _ _), None | Some (FComp _ _), Some _ => True | _, _ => False end.
Lemma fits_kind_app funs l k f : fits_kind funs k f = true -> fits_kind (funs ++ l) k f = true.
Proof.
  destruct f as [i|]; auto. simpl. destruct (nth_error funs i) as [x|] eqn:E; [|discriminate].
  rewrite nth_error_app1 by (apply nth_error_Some; congruence). now rewrite E.
Qed.
Lemma m_get_set i x l j p : m_get j (set_nth i x l) = Some p -> (i = j /\ x = Some p) \/ m_get j l = Some p.
Proof.
  unfold m_get. intros H. destruct (Nat.eq_dec i j) as [->|NE].
  - destruct (Nat.ltb_spec j (length l)) as [L|L].
    + rewrite set_nth_same in H by auto. destruct x; [injection H as ->; auto|discriminate].
    + assert (E : nth_error (set_nth j x l) j = None). { apply nth_error_None. rewrite set_nth_length. auto. } rewrite E in H. discriminate.
  - rewrite set_nth_other in H by auto. auto.
Qed.
Lemma m_get_app l x j p : m_get j (l ++ [Some x]) = Some p -> p = x \/ m_get j l = Some p.
Proof.
  unfold m_get. intros H. destruct (Nat.ltb_spec j (length l)) as [L|L].
  - rewrite nth_error_app1 in H by auto. auto.
  - rewrite nth_error_app2 in H by auto. destruct (j - length l)%nat as [|q]; simpl in H; [injection H as ->; auto|destruct q; discriminate].
Qed.
Lemma pushed_kind now clk p : p_kind (snd (p_push now clk p)) = p_kind p /\ (p_fun (snd (p_push now clk p)) = p_fun p \/ p_fun (snd (p_push now clk p)) = None).
Proof. unfold p_push. destruct (p_fun p) eqn:E; simpl; auto. destruct (p_kind p) eqn:EK; simpl; rewrite ?EK, ?E; auto. Qed.
Lemma push_fits funs now clk p : fits_kind funs (p_kind p) (p_fun p) = true -> Forall (report_fits funs) (fst (p_push now clk p)).
Proof.
  unfold p_push, report_fits. destruct (p_fun p) as [f|]; [|constructor]. simpl. destruct (nth_error funs f) as [[]|] eqn:E, (p_kind p); intros H; try discriminate;
    simpl; constructor; simpl; rewrite ?E; auto.
Qed.
Lemma new_kind k f c v rd wr sh clk : p_kind (p_new k f c v rd wr sh clk) = k /\ p_fun (p_new k f c v rd wr sh clk) = f.
Proof. destruct k; simpl; auto. Qed.
Lemma set_kind x p : p_kind (p_set x p) = p_kind p /\ p_fun (p_set x p) = p_fun p.
Proof. unfold p_set. destruct (p_kind p) eqn:E, x; simpl; auto. Qed.
Lemma reset_kind p : p_kind (p_reset p) = p_kind p /\ p_fun (p_reset p) = p_fun p.
Proof. unfold p_reset. destruct (p_kind p) eqn:E; simpl; auto. Qed.
Lemma kind_none funs k : fits_kind funs k None = true. Proof. reflexivity. Qed.

Lemma do_kept op s : well_kept s -> y_typed op s = true ->
  well_kept (mk_sys (y_wrt s) (y_alive s) (y_funs s) (snd (m_do op (y_pts s)))) /\
  Forall (fun e => match e with EvReport r => report_fits (y_funs s) r | _ => True end) (fst (m_do op (y_pts s))).
Proof.
  intros W T. assert (ST : forall f, Forall (fun e => match e with EvReport r => report_fits (y_funs s) r | _ => True end) (starts f)) by (intros [|]; repeat constructor).
  assert (RP : forall l, Forall (report_fits (y_funs s)) l -> Forall (fun e => match e with EvReport r => report_fits (y_funs s) r | _ => True end) (map EvReport l)).
  { intros l H. apply Forall_map. exact H. }
  unfold well_kept in *. cbn [y_pts y_funs]. destruct op; cbn [m_do y_typed] in *.
  - split; [|apply ST]. intros j p H. simpl in H. apply m_get_app in H as [->|H]; eauto. destruct (new_kind k f count value rd wr shift clk) as [-> ->]. eauto.
  - destruct (m_get i (y_pts s)) as [p|] eqn:E; simpl; [|eauto]. split; eauto. intros j p' H. apply m_get_set in H as [[<- H]|H]; eauto. injection H as <-.
    destruct (set_kind s0 p) as [-> ->]. eauto.
  - destruct (m_get i (y_pts s)) as [p|] eqn:E; simpl; [|eauto]. split; [|apply RP, push_fits; eauto]. intros j p' H. apply m_get_set in H as [[<- H]|H]; eauto. injection H as <-.
    destruct (pushed_kind now clk p) as [-> [->| ->]]; eauto.
  - destruct (m_get i (y_pts s)) as [p|] eqn:E; simpl; [|eauto]. split; eauto. intros j p' H. apply m_get_set in H as [[<- H]|H]; eauto. injection H as <-.
    destruct (reset_kind p) as [-> ->]. eauto.
  - destruct (m_get i (y_pts s)) as [p|] eqn:E; simpl; [|eauto]. split.
    + intros j p' H. apply m_get_set in H as [[<- H]|H]; eauto. injection H as <-. destruct (new_kind (p_kind p) f count value rd wr shift clk2) as [-> ->]. eauto.
    + apply Forall_app. split; [apply RP, push_fits; eauto|apply ST].
  - destruct (m_get i (y_pts s)) as [p|] eqn:E; simpl; [|eauto]. split; [|apply ST]. intros j p' H. apply m_get_app in H as [->|H]; eauto.
    unfold p_clone. destruct (new_kind (p_kind p) (p_fun p) count value rd wr shift clk) as [-> ->]. eauto.
  - destruct (m_get i (y_pts s)) as [p|] eqn:E; simpl; [|eauto]. split; eauto. intros j p' H. apply m_get_app in H as [->|H]; [eauto|].
    apply m_get_set in H as [[<- H]|H]; eauto. injection H as <-. simpl. reflexivity.
  - destruct (m_get i (y_pts s)) as [p|] eqn:E; simpl; [|eauto]. destruct (m_get j (y_pts s)) as [q|] eqn:EQ; simpl; [|eauto].
    destruct (Nat.eqb i j); simpl; [eauto|]. split; [|destruct (p_fun p); repeat constructor]. intros x p' H. apply m_get_set in H as [[<- H]|H]; [injection H as <-; reflexivity|].
    apply m_get_set in H as [[<- H]|H]; eauto. injection H as <-. eauto.
  - destruct (m_get i (y_pts s)) as [p|] eqn:E; simpl; [|eauto]. split; [|apply RP, push_fits; eauto]. intros j p' H. apply m_get_set in H as [[<- H]|H]; eauto. discriminate.
Qed.

Definition outlived (s : sys) : Prop := y_alive s = false -> rg_arr (y_reg s) = [].
Lemma call_pts ne p d x cl s e s' : y_call ne p d x cl s = Ok (e, s') -> y_pts s' = y_pts s /\ y_funs s' = y_funs s /\ y_alive s' = y_alive s.
Proof.
  unfold y_call. destruct (rg_call_opt _ _ _ _ _ _) as [[recs r]| |]; cbn [bind]; try discriminate.
  destruct (y_deliver _ _ _) as [e1| |]; cbn [bind]; try discriminate. intros H. injection H as _ <-. auto.
Qed.
Lemma report_pts ne rp cl s e s' : y_report ne rp cl s = Ok (e, s') -> y_pts s' = y_pts s /\ y_funs s' = y_funs s /\ y_alive s' = y_alive s.
Proof.
  unfold y_report. destruct (nth_error (y_funs s) (rp_fun rp)) as [[p id|p to]|], (rp_sizes rp) as [[rd wr]|]; try discriminate.
  - apply call_pts.
  - intros E. destruct (y_call ne (cp_time p) _ _ _ s) as [[e1 s1]| |] eqn:E1; cbn [bind] in E; try discriminate. apply call_pts in E1 as (A1 & B1 & C1).
    destruct (y_call ne (cp_read p) _ _ _ s1) as [[e2 s2]| |] eqn:E2; cbn [bind] in E; try discriminate. apply call_pts in E2 as (A2 & B2 & C2).
    destruct (y_call ne (cp_write p) _ _ _ s2) as [[e3 s3]| |] eqn:E3; cbn [bind] in E; try discriminate. apply call_pts in E3 as (A3 & B3 & C3).
    injection E as _ <-. repeat split; congruence.
Qed.
Lemma events_pts ne es cl : forall s e s', y_events ne es cl s = Ok (e, s') -> y_pts s' = y_pts s /\ y_funs s' = y_funs s /\ y_alive s' = y_alive s.
Proof.
  induction es as [|x es IH]; intros s e s' E; cbn [y_events] in E; [injection E as _ <-; auto|].
  destruct (match x with EvReport rp => y_report ne rp cl s | _ => Ok ([], s) end) as [[e1 s1]| |] eqn:E1; cbn [bind] in E; try discriminate.
  destruct (y_events ne es cl s1) as [[e2 s2]| |] eqn:E2; cbn [bind] in E; try discriminate. injection E as _ <-. apply IH in E2 as (A2 & B2 & C2).
  assert (y_pts s1 = y_pts s /\ y_funs s1 = y_funs s /\ y_alive s1 = y_alive s) as (A1 & B1 & C1).
  { destruct x; [injection E1 as _ <-; auto|eapply report_pts; eauto|injection E1 as _ <-; auto]. }
  repeat split; congruence.
Qed.
Lemma dead_events_wrt ne es cl : forall s e s', rg_arr (y_reg s) = [] -> y_events ne es cl s = Ok (e, s') -> s' = s.
Proof.
  induction es as [|x es IH]; intros s e s' A E; cbn [y_events] in E; [now injection E as _ <-|].
  destruct (match x with EvReport rp => y_report ne rp cl s | _ => Ok ([], s) end) as [[e1 s1]| |] eqn:E1; cbn [bind] in E; try discriminate.
  assert (s1 = s) as ->. { destruct x; [now injection E1 as _ <-|apply dead_report in E1 as [_ ->]; auto|now injection E1 as _ <-]. }
  destruct (y_events ne es cl s) as [[e2 s2]| |] eqn:E2; cbn [bind] in E; try discriminate. injection E as _ <-. eauto.
Qed.

Lemma do_inv ne op s e s' : well_kept s -> outlived s -> y_do ne op s = Ok (e, s') -> well_kept s' /\ outlived s'.
Proof.
  intros W O E. assert (ADD : forall f s1, y_funs s1 = y_funs s -> y_pts s1 = y_pts s -> y_alive s1 = true -> well_kept (y_add_fun f s1) /\ outlived (y_add_fun f s1)).
  { intros f s1 E1 E2 E3. split; [|intros X; simpl in X; congruence]. intros i p H. simpl in *. rewrite E1. apply fits_kind_app. apply W with (i := i). now rewrite <- E2. }
  assert (SAME : forall s1, y_funs s1 = y_funs s -> y_pts s1 = y_pts s -> y_alive s1 = true -> well_kept s1 /\ outlived s1).
  { intros s1 E1 E2 E3. split; [|intros X; congruence]. intros i p. rewrite E1, E2. apply W. }
  destruct op as [id|en m now|id sum|order en m sum now|op0 cl|g|force clk|clk].
  5: { cbn [y_do] in E. destruct (y_typed op0 s) eqn:ET; [|injection E as <- <-; auto].
       destruct (do_kept op0 s W ET) as [K _]. destruct (m_do op0 (y_pts s)) as [es pts]. simpl in K.
       assert (E' := E). apply events_pts in E as (A & B & C). split.
       - intros i p H. rewrite A in H. rewrite B. apply (K i p H).
       - intros AL. rewrite C in AL. simpl in AL. specialize (O AL). apply dead_events_wrt in E'; auto. now subst s'. }
  all: cbn [y_do] in E; destruct (y_alive s) eqn:A; cbn [negb] in E; try discriminate.
  - unfold y_meter_id in E. destruct (rg_pusher _ _ _) as [[p|]| |]; cbn [bind] in E; try discriminate; injection E as _ <-; auto.
  - unfold y_meter_name in E. destruct (rg_create _ _ _ _ _) as [[id r]| |]; cbn [bind] in E; try discriminate.
    unfold y_meter_id in E. destruct (rg_pusher _ _ _) as [[p|]| |]; cbn [bind] in E; try discriminate; injection E as _ <-; auto.
  - unfold y_comp_id in E. destruct (rg_composite _ _ _ _ _ _ _ _) as [[p|]| |]; cbn [bind] in E; try discriminate; injection E as _ <-; auto.
  - unfold y_comp_name in E. destruct (rg_composite_name _ _ _ _ _ _ _ _) as [[[p|] r]| |]; cbn [bind] in E; try discriminate; injection E as _ <-; auto.
  - destruct (rg_do ne g (y_reg s)) as [[out r]| |]; cbn [bind] in E; try discriminate. injection E as _ <-. auto.
  - destruct (w_pushout ne force clk (y_wrt s)) as [[l w]| |]; cbn [bind] in E; try discriminate. injection E as _ <-. auto.
  - destruct (w_pushout ne true clk (y_wrt s)) as [[l w]| |]; cbn [bind] in E; try discriminate. injection E as _ <-. split; [exact W|]. intros _. reflexivity.
Qed.
Lemma run_inv ne ops : forall s e s', well_kept s -> outlived s -> y_run ne s ops = Ok (e, s') -> well_kept s' /\ outlived s'.
Proof.
  induction ops as [|op ops IH]; intros s e s' W O E; cbn [y_run] in E; [injection E as _ <-; auto|].
  destruct (y_do ne op s) as [[e1 s1]| |] eqn:E1; cbn [bind] in E; try discriminate.
  destruct (y_run ne s1 ops) as [[e2 s2]| |] eqn:E2; cbn [bind] in E; try discriminate. injection E as _ <-.
  destruct (do_inv ne op s e1 s1 W O E1). eauto.
Qed.
Lemma new_inv o h : well_kept (y_new o h) /\ outlived (y_new o h).
Proof. split; [intros [|i] p H; discriminate|intros H; discriminate]. Qed.

Lemma dead_events ne es cl s : rg_arr (y_reg s) = [] -> Forall (fun e => match e with EvReport r => report_fits (y_funs s) r | _ => True end) es ->
  y_events ne es cl s = Ok (map LPoint es, s).
Proof.
  intros A. induction 1 as [|x es H _ IH]; auto. cbn [y_events].
  assert (C : forall p d x cl, y_call ne p d x cl s = Ok ([], s)).
  { intros p d x0 cl0. unfold y_call. assert (X : rg_call_opt ne p x0 (fst cl0) (snd cl0) (y_reg s) = Ok ([], y_reg s)).
    { destruct p; auto. simpl. unfold rg_call_pusher. now rewrite A. }
    rewrite X. cbn [bind y_deliver]. destruct s as [[r hh] al fs ps]. reflexivity. }
  assert (E : match x with EvReport rp => y_report ne rp cl s | _ => Ok ([], s) end = Ok ([], s)).
  { destruct x as [f|rp|f]; auto. unfold report_fits in H. unfold y_report.
    destruct (nth_error (y_funs s) (rp_fun rp)) as [[p id|p to]|], (rp_sizes rp) as [[rd wr]|]; try contradiction; [apply C|].
    rewrite !C. cbn [bind]. rewrite !C. cbn [bind]. rewrite C. reflexivity. }
  rewrite E. cbn [bind]. rewrite IH. reflexivity.
Qed.
Lemma points_outlive ne ops : forall s, well_kept s -> outlived s -> y_alive s = false -> Forall only_points ops ->
  exists l s', y_run ne s ops = Ok (l, s') /\ (forall m a, ~ In (LHandler m a) l) /\ y_wrt s' = y_wrt s.
Proof.
  induction ops as [|op ops IH]; intros s W O A HP; [exists [], s; split; auto|].
  inversion HP as [|? ? H1 H2]; subst. destruct op; try contradiction. cbn [y_run y_do].
  destruct (y_typed o s) eqn:ET.
  - destruct (do_kept o s W ET) as [K1 K2]. destruct (m_do o (y_pts s)) as [es pts]. simpl in K1, K2. set (s0 := mk_sys _ _ _ pts) in *.
    rewrite (dead_events ne es cl s0 (O A) K2). cbn [bind]. destruct (IH s0 K1 O A H2) as (l & s' & E & NH & EW). rewrite E. cbn [bind].
    exists (map LPoint es ++ l), s'. split; auto. split; auto. intros m a H. apply in_app_or in H as [H|H]; [|eapply NH; eauto].
    apply in_map_iff in H as (x & X & _). discriminate.
  - cbn [bind]. destruct (IH s W O A H2) as (l & s' & E & NH & EW). rewrite E. cbn [bind]. exists l, s'. auto.
Qed.

(** ** Numbers of meters *)
Lemma numbers_app a b : numbers (a ++ b) = numbers a ++ numbers b.
Proof. unfold numbers. apply flat_map_app. Qed.
Lemma deliver_numbers d recs s e : y_deliver d recs s = Ok e -> numbers e = [].
Proof.
  unfold y_deliver. destruct recs as [|a l]; [intros H; now injection H as <-|]. destruct d; [destruct (y_alive s); [|discriminate]|]; intros H; injection H as <-.
  - generalize (w_deliver id (a :: l) (y_reg s)) as L. intros L; induction L as [|q L IH]; [reflexivity|exact IH].
  - change (numbers (map (LHandler n) l) = []). induction l as [|q l IH]; [reflexivity|exact IH].
Qed.
Lemma call_numbers ne p d x cl s e s' : y_call ne p d x cl s = Ok (e, s') -> numbers e = [].
Proof.
  unfold y_call. destruct (rg_call_opt _ _ _ _ _ _) as [[recs r]| |]; cbn [bind]; try discriminate.
  destruct (y_deliver _ _ _) as [e1| |] eqn:E; cbn [bind]; try discriminate. intros H. injection H as <- _. eapply deliver_numbers; eauto.
Qed.
Lemma report_numbers ne rp cl s e s' : y_report ne rp cl s = Ok (e, s') -> numbers e = [].
Proof.
  unfold y_report. destruct (nth_error (y_funs s) (rp_fun rp)) as [[p id|p to]|], (rp_sizes rp) as [[rd wr]|]; try discriminate.
  - apply call_numbers.
  - intros E. destruct (y_call ne (cp_time p) _ _ _ s) as [[e1 s1]| |] eqn:E1; cbn [bind] in E; try discriminate. apply call_numbers in E1.
    destruct (y_call ne (cp_read p) _ _ _ s1) as [[e2 s2]| |] eqn:E2; cbn [bind] in E; try discriminate. apply call_numbers in E2.
    destruct (y_call ne (cp_write p) _ _ _ s2) as [[e3 s3]| |] eqn:E3; cbn [bind] in E; try discriminate. apply call_numbers in E3.
    injection E as <- _. now rewrite !numbers_app, E1, E2, E3.
Qed.
Lemma events_numbers ne es cl : forall s e s', y_events ne es cl s = Ok (e, s') -> numbers e = [].
Proof.
  induction es as [|x es IH]; intros s e s' E; cbn [y_events] in E; [now injection E as <- _|].
  destruct (match x with EvReport rp => y_report ne rp cl s | _ => Ok ([], s) end) as [[e1 s1]| |] eqn:E1; cbn [bind] in E; try discriminate.
  destruct (y_events ne es cl s1) as [[e2 s2]| |] eqn:E2; cbn [bind] in E; try discriminate. injection E as <- _. change (LPoint x :: e1 ++ e2) with ([LPoint x] ++ e1 ++ e2).
  rewrite !numbers_app, (IH _ _ _ E2). destruct x; [injection E1 as <- _|apply report_numbers in E1; rewrite E1|injection E1 as <- _]; reflexivity.
Qed.
Lemma handler_numbers (l : list (name * adata)) : numbers (map (fun q => LHandler (fst q) (snd q)) l) = [].
Proof. induction l; auto. Qed.
Lemma do_numbers ne op s e s' : y_do ne op s = Ok (e, s') ->
  numbers e = seq (length (y_funs s)) (length (meters e)) /\ length (y_funs s') = (length (y_funs s) + length (meters e))%nat.
Proof.
  intros E. assert (Z : forall e, numbers e = [] -> length (meters e) = 0%nat).
  { intros l. unfold numbers, meters. induction l as [|x l IH]; auto. simpl. rewrite app_length. destruct x as [[]| | | |]; simpl; auto; discriminate. }
  destruct op as [id|en m now|id sum|order en m sum now|op0 cl|g|force clk|clk].
  5: { cbn [y_do] in E. destruct (y_typed op0 s); [|injection E as <- <-; simpl; auto].
       destruct (m_do op0 (y_pts s)) as [es pts]. pose proof (events_numbers _ _ _ _ _ _ E) as X. rewrite X, (Z _ X). apply events_pts in E as (_ & -> & _). simpl. auto. }
  all: cbn [y_do] in E; destruct (y_alive s) eqn:A; cbn [negb] in E; try discriminate.
  - unfold y_meter_id in E. destruct (rg_pusher _ _ _) as [[p|]| |]; cbn [bind] in E; try discriminate; injection E as <- <-; simpl; rewrite ?app_length; auto.
  - unfold y_meter_name in E. destruct (rg_create _ _ _ _ _) as [[id r]| |]; cbn [bind] in E; try discriminate.
    unfold y_meter_id in E. destruct (rg_pusher _ _ _) as [[p|]| |]; cbn [bind] in E; try discriminate; injection E as <- <-; simpl; rewrite ?app_length; auto.
  - unfold y_comp_id in E. destruct (rg_composite _ _ _ _ _ _ _ _) as [[p|]| |]; cbn [bind] in E; try discriminate; injection E as <- <-; simpl; rewrite ?app_length; auto.
  - unfold y_comp_name in E. destruct (rg_composite_name _ _ _ _ _ _ _ _) as [[[p|] r]| |]; cbn [bind] in E; try discriminate; injection E as <- <-; simpl; rewrite ?app_length; auto.
  - destruct (rg_do ne g (y_reg s)) as [[out r]| |]; cbn [bind] in E; try discriminate. injection E as <- <-. simpl. auto.
  - destruct (w_pushout ne force clk (y_wrt s)) as [[l w]| |]; cbn [bind] in E; try discriminate. injection E as <- <-.
    assert (X : numbers (map (fun q => LHandler (fst q) (snd q)) l ++ [LPushed (length l)]) = []) by (rewrite numbers_app, handler_numbers; reflexivity).
    rewrite X, (Z _ X). simpl. auto.
  - destruct (w_pushout ne true clk (y_wrt s)) as [[l w]| |]; cbn [bind] in E; try discriminate. injection E as <- <-.
    rewrite handler_numbers, (Z _ (handler_numbers l)). simpl. auto.
Qed.
Lemma run_numbers ne ops : forall s e s', y_run ne s ops = Ok (e, s') ->
  numbers e = seq (length (y_funs s)) (length (meters e)) /\ length (y_funs s') = (length (y_funs s) + length (meters e))%nat.
Proof.
  induction ops as [|op ops IH]; intros s e s' E; cbn [y_run] in E; [injection E as <- <-; simpl; auto|].
  destruct (y_do ne op s) as [[e1 s1]| |] eqn:E1; cbn [bind] in E; try discriminate.
  destruct (y_run ne s1 ops) as [[e2 s2]| |] eqn:E2; cbn [bind] in E; try discriminate. injection E as <- <-.
  apply do_numbers in E1 as [A1 B1]. apply IH in E2 as [A2 B2]. rewrite numbers_app, meters_app, app_length, A1, A2, B2, B1, seq_app. split; [reflexivity|lia].
Qed.
