(** The properties of a registry whose calls fail, in the form stated in PropsFault. *)
From Coq Require Import ZArith List Bool Permutation Lia Arith Ascii.
From Verif Require Import Base ModelTypes ModelAvg ModelReducer SpecReducer ModelSeparator SpecSeparator
  ModelAggregator SpecAggregator ModelRegistry SpecRegistry RegProofs RegFinal ModelFault SpecFault FaultProofs.
Import ListNotations.
Local Open Scope Z_scope.

Section Final.
  Variable ne : nat -> list Z -> list Z.
  Variable o : rgopts.

  Lemma x_run_inv : forall ops k r d outs r', fits o (k + length ops) -> XI o k r d -> Forall not_between ops -> x_run ne r ops = Ok (outs, r') ->
    exists k' d', (k <= k' <= k + length ops)%nat /\ XI o k' r' d'.
  Proof.
    induction ops as [|op ops IH]; intros k r d outs r' F I NB E; cbn [x_run] in E.
    - injection E as <- <-. exists k, d. split; auto. simpl. lia.
    - destruct (x_do ne op r) as [[o1 r1]| |] eqn:E1; cbn [bind] in E; try discriminate.
      destruct (x_run ne r1 ops) as [[os r2]| |] eqn:E2; cbn [bind] in E; try discriminate. injection E as <- <-. simpl in F.
      inversion NB as [|? ? NB1 NB2]; subst.
      destruct (x_do_sim ne o _ F k r d op o1 r1 I ltac:(lia) E1 NB1) as (k1 & d1 & L1 & I1 & _).
      destruct (IH k1 r1 d1 os r2 (fits_le o (k + S (length ops)) (k1 + length ops) ltac:(lia) F) I1 NB2 E2) as (k2 & d2 & L2 & I2).
      exists k2, d2. split; auto. simpl. lia.
  Qed.
  Lemma x_reach_inv n r : fits o n -> x_reachable ne o n r -> exists k d, (k <= n)%nat /\ XI o k r d.
  Proof.
    intros F (ops & outs & <- & NB & E). destruct (x_run_inv ops 0 (rg_new o) _ outs r F (XI_new o) NB E) as (k & d & Hk & I).
    exists k, d. split; auto. lia.
  Qed.

  (** * Isolation *)
  Lemma x_cell_run n : n <> [] -> forall ops k r d outs r', fits o (k + length ops) -> XI o k r d -> Forall not_between ops -> x_all_clean ne r ops ->
    x_run ne r ops = Ok (outs, r') ->
    exists k' d', (k' <= k + length ops)%nat /\ XI o k' r' d' /\
      cell_run ne (rgo_agg o) (cellof o (core r d) n) (map fst (x_project ne n r ops)) = Ok (map snd (x_project ne n r ops), cellof o (core r' d') n).
  Proof.
    intros HN. induction ops as [|op ops IH]; intros k r d outs r' F I NB C E; cbn [x_run x_project x_all_clean] in *.
    - injection E as <- <-. exists k, d. split; [lia|]. auto.
    - destruct (x_do ne op r) as [[o1 r1]| |] eqn:E1; cbn [bind] in E; try discriminate.
      destruct (x_run ne r1 ops) as [[os r2]| |] eqn:E2; cbn [bind] in E; try discriminate. injection E as <- <-. simpl in F.
      inversion NB as [|? ? NB1 NB2]; subst. destruct C as [C0 C].
      destruct (x_do_sim ne o _ F k r d op o1 r1 I ltac:(lia) E1 NB1) as (k1 & d1 & L1 & I1 & S1).
      specialize (S1 C0 n HN).
      destruct (IH k1 r1 d1 os r2 (fits_le o (k + S (length ops)) (k1 + length ops) ltac:(lia) F) I1 NB2 C E2) as (k2 & d2 & L2 & I2 & CR).
      exists k2, d2. split; [simpl; lia|]. split; auto. unfold cell_step in S1. destruct (x_addressed n r op o1) as [c|]; cbn [app map].
      + cbn [fst snd cell_run]. rewrite S1. cbn [bind]. rewrite CR. reflexivity.
      + rewrite <- S1. exact CR.
  Qed.
  Lemma x_isolation n ops outs r : n <> [] -> fits o (length ops) -> Forall not_between ops -> x_all_clean ne (rg_new o) ops ->
    x_run ne (rg_new o) ops = Ok (outs, r) ->
    exists c, cell_run ne (rgo_agg o) (mk_cell None true (rgo_initializer o)) (map fst (x_project ne n (rg_new o) ops))
              = Ok (map snd (x_project ne n (rg_new o) ops), c) /\
      (forall g, cl_agg c = Some g <-> exists id s, registered r n id s g) /\ cl_enabled c = rg_enabled r /\ cl_init c = rg_initializer r.
  Proof.
    intros HN F NB C E. destruct (x_cell_run n HN ops 0 (rg_new o) _ outs r F (XI_new o) NB C E) as (k & d & Hk & I & CR).
    exists (cellof o (core r d) n). split; [exact CR|]. split; [|split; reflexivity].
    intros g. unfold cellof. cbn [cl_agg]. split.
    - destruct (slot o (core r d) n) as [[[id s] g1]|] eqn:ES; [|discriminate]. intros H. injection H as ->. exists id, s.
      apply (registered_core o (length ops) F k r d); auto.
    - intros (i & s' & RG). apply (registered_core o (length ops) F k r d) in RG; auto. destruct RG as [_ RG]. now rewrite RG.
  Qed.
  Lemma x_refused k r d N id : fits o N -> (k <= N)%nat -> XI o k r d -> rgo_step o = 1 -> 0 <= id < two64 -> rg_get_name id r = [] -> rg_get id r = Ok None.
  Proof.
    intros F Hk I S1 B GN. pose proof (x_core _ _ _ _ I) as R. rewrite <- (core_get r d id (x_step _ _ _ _ I)). unfold rg_get. destruct (id =? bad_id); auto.
    unfold d_id2pos. rewrite (ri_step _ _ _ R), S1. simpl (1 =? 0). cbn [bind].
    replace (id + 1 - 1) with id by lia. rewrite Z.div_1_r. unfold u64. rewrite Z.mod_small by auto.
    destruct (nth_error (rg_arr (core r d)) (Z.to_nat id)) as [[[s g]|]|] eqn:E; auto.
    destruct (ri_arr _ _ _ R _ _ _ E) as (_ & n & i & EN & P). rewrite S1 in P. unfold posn in P.
    replace (i + 1 - 1) with i in P by lia. rewrite Z.div_1_r in P.
    destruct (ri_live _ _ _ R _ _ EN) as (j & Hj & ->). pose proof (id_range o N F j ltac:(lia)).
    assert (id = nth_id o j) by lia. subst id. cbn [core rg_dict] in EN. rewrite (x_dict _ _ _ _ I) in EN.
    destruct (m_find name_eqb n (d_dict (rg_dict r))) as [q|] eqn:EQ; [|discriminate]. destruct (occ o r q); [|discriminate]. injection EN as ->.
    pose proof EQ as EQ'. apply (x_inv _ _ _ _ I) in EQ. unfold rg_get_name, d_get_name in GN. rewrite EQ in GN. subst n.
    rewrite (x_noname _ _ _ _ I) in EQ'. discriminate.
  Qed.
  Lemma x_clean_step1 : rgo_step o = 1 -> forall ops k r d, fits o (k + length ops) -> XI o k r d -> Forall not_between ops ->
    Forall (fun op => match op with XOp op => id_ok op | _ => True end) ops -> x_all_clean ne r ops.
  Proof.
    intros S1. induction ops as [|op ops IH]; intros k r d F I NB B; cbn [x_all_clean]; auto.
    inversion B as [|? ? B1 B2]; subst. inversion NB as [|? ? NB1 NB2]; subst. simpl in F. split.
    - destruct op as [op| | |]; simpl; auto. destruct op; simpl; auto. destruct (list_eq_dec ascii_dec (rg_get_name id r) []); auto. right.
      apply (x_refused k r d (k + S (length ops)) id F ltac:(lia) I S1 B1 e).
    - destruct (x_do ne op r) as [[o1 r1]| |] eqn:E1; auto.
      destruct (x_do_sim ne o _ F k r d op o1 r1 I ltac:(lia) E1 NB1) as (k1 & d1 & L1 & I1 & _).
      apply (IH k1 r1 d1); auto. apply (fits_le o (k + S (length ops)) (k1 + length ops) ltac:(lia) F).
  Qed.

  (** * Names *)
  Lemma x_names N r id id' : fits o N -> x_reachable ne o N r -> rg_get_name id r <> [] -> rg_get_name id r = rg_get_name id' r -> id = id'.
  Proof.
    intros F R H E. destruct (x_reach_inv N r F R) as (k & d & Hk & I). unfold rg_get_name, d_get_name in *.
    destruct (m_find Z.eqb id (d_index (rg_dict r))) as [n|] eqn:E1; [|congruence].
    destruct (m_find Z.eqb id' (d_index (rg_dict r))) as [n'|] eqn:E2; [|congruence]. subst n'.
    apply (x_inv _ _ _ _ I) in E1, E2. congruence.
  Qed.

  (** * Creation *)
  Lemma registered_none N k r d n : fits o N -> XI o k r d -> (k <= N)%nat -> n <> [] -> (forall i s g, ~ registered r n i s g) <-> slot o (core r d) n = None.
  Proof.
    intros F I Hk HN. split.
    - intros H. destruct (slot o (core r d) n) as [[[i s] g]|] eqn:ES; auto. exfalso. apply (H i s g). apply (registered_core o N F k r d); auto.
    - intros H i s g RG. apply (registered_core o N F k r d) in RG; auto. destruct RG. congruence.
  Qed.
  Lemma x_created N x e n now r res r1 : fits o (S N) -> x_reachable ne o N r -> n <> [] -> x <> Some XIndex -> rg_create_x ne x e n now r = Ok (res, r1) ->
    rg_enabled r1 = rg_enabled r /\ rg_initializer r1 = rg_initializer r /\
    (forall m id s g, m <> n -> (registered r1 m id s g <-> registered r m id s g)) /\
    match res with
    | Some id => exists s g, registered r1 n id s g /\
        ((exists i s' g', registered r n i s' g') -> registered r n id s g) /\
        ((forall i s' g', ~ registered r n i s' g') ->
           exists c, cell_create ne (rgo_agg o) e now (mk_cell None (rg_enabled r) (rg_initializer r)) = Ok (g, c))
    | None => (forall i s g, ~ registered r n i s g) /\
        match x with
        | Some XInit => exists id s g, registered r1 n id s g /\ agg_new (rgo_agg o) (ce_clock e) (ce_rnd e) now = Ok g
        | _ => forall i s g, ~ registered r1 n i s g
        end
    end.
  Proof.
    intros F1 R HN HX E. pose proof (fits_le o (S N) N ltac:(lia) F1) as F. destruct (x_reach_inv N r F R) as (k & d & Hk & I).
    destruct (create_x_sim ne o N F x k r d e n now res r1 I Hk HN HX E) as (k' & d' & Hk' & I' & [FL1 FL2] & SO & CR & EN & _).
    split; auto. split; auto. split.
    { intros m id s g NE. rewrite (registered_core o (S N) F1 k' r1 d' m id s g I' ltac:(lia)), (registered_core o (S N) F1 k r d m id s g I ltac:(lia)).
      rewrite (SO m NE). tauto. }
    destruct res as [id|].
    - destruct CR as (g & s & CC & SL). exists s, g. split; [apply (registered_core o (S N) F1 k' r1 d'); auto; lia|].
      assert (G : forall i s' g', slot o (core r d) n = Some (i, s', g') -> slot o (core r d) n = Some (id, s, g)).
      { intros i s' g' SN. pose proof SN as SN'. apply (slot_core o k r d n i s' g' I) in SN' as [A B].
        (* the name had an aggregator: nothing has changed *)
        rewrite (create_rest ne x e n now r HN HX), A in E. unfold rest in E.
        destruct (x_live _ _ _ _ I _ _ A) as (j & Hj & EJ).
        assert (EP : d_id2pos i (rg_dict r) = Ok (posn (rgo_step o) i)) by (rewrite EJ; apply (x_id2pos o N F k r d j I); lia).
        rewrite EP in E. cbn [bind] in E. rewrite B in E. injection E as <- <-.
        apply (slot_core o k' r d' n i s g I') in SL as [_ SL]. rewrite B in SL. injection SL as <- <-. exact SN. }
      split.
      + intros (i & s' & g' & RG). apply (registered_core o N F k r d) in RG; auto. destruct RG as [_ SN].
        apply (registered_core o N F k r d); auto. split; auto. eapply G; eauto.
      + intros H. apply (registered_none N k r d n F I Hk HN) in H. unfold cellof in CC at 1. rewrite H in CC. eauto.
    - destruct CR as [SN CR]. split; [apply (registered_none N k r d n F I Hk HN); auto|].
      destruct x as [[]|]; try (apply (registered_none (S N) k' r1 d' n F1 I' ltac:(lia) HN); exact CR).
      destruct CR as (id & g & s & CC & SL). exists id, s, g. split; [apply (registered_core o (S N) F1 k' r1 d'); auto; lia|].
      unfold cell_create, cellof in CC. rewrite SN in CC. cbn [cl_agg cl_enabled cl_init no_data ce_clock ce_rnd ce_init] in CC.
      destruct (agg_new (rgo_agg o) (ce_clock e) (ce_rnd e) now) as [g0| |] eqn:EA; cbn [bind] in CC; try discriminate.
      (* the initializer is called only when the registry is enabled *)
      assert (EE : rg_enabled r = true).
      { rewrite (create_rest ne (Some XInit) e n now r HN HX) in E. 
        assert (AUX : forall i r0, rest ne (Some XInit) e now i r0 = Ok (None, r1) -> rg_enabled r0 = true).
        { intros i r0 E0. unfold rest in E0. destruct (d_id2pos i (rg_dict r0)); cbn [bind] in E0; try discriminate.
          destruct (nth_error (rg_arr r0) a) as [[y|]|]; try discriminate;
          (destruct (agg_new (rg_opt r0) (ce_clock e) (ce_rnd e) now); cbn [bind] in E0; try discriminate;
           destruct (rg_enabled r0); auto; cbn [andb] in E0; destruct (rg_init_x ne e a0 r0); cbn [bind] in E0; discriminate). }
        destruct (m_find name_eqb n (d_dict (rg_dict r))) as [i|]; [exact (AUX _ _ E)|].
        destruct (new_id (ce_pick e) (rg_dict r)) as [[i c] fr]. apply AUX in E. exact E. }
      cbn [core rg_enabled] in CC. rewrite EE in CC. cbn [negb] in CC. destruct (rg_initializer (core r d)); cbn [bind] in CC; congruence.
  Qed.
  Lemma x_reach_step N op r out r1 : x_reachable ne o N r -> not_between op -> x_do ne op r = Ok (out, r1) -> x_reachable ne o (S N) r1.
  Proof.
    intros (ops & outs & <- & NB & E) NB1 E1. exists (ops ++ [op]), (outs ++ [out]). split; [rewrite app_length; simpl; lia|].
    split; [apply Forall_app; auto|].
    assert (G : forall l r0 os, x_run ne r0 l = Ok (os, r) -> x_run ne r0 (l ++ [op]) = Ok (os ++ [out], r1)).
    { induction l as [|y l IH]; intros r0 os E0; cbn [x_run app] in *.
      - injection E0 as <- <-. rewrite E1. reflexivity.
      - destruct (x_do ne y r0) as [[o2 r2]| |]; cbn [bind] in *; try discriminate.
        destruct (x_run ne r2 l) as [[os2 r3]| |] eqn:E2; cbn [bind] in E0; try discriminate. injection E0 as <- <-.
        rewrite (IH r2 os2 E2). reflexivity. }
    apply G. exact E.
  Qed.
  Lemma rg_create_reach N x e n now r res r1 : x_reachable ne o N r -> x <> XIndex -> rg_create_x ne (Some x) e n now r = Ok (res, r1) -> x_reachable ne o (S N) r1.
  Proof.
    intros R HX E. eapply (x_reach_step N (XCreate x e n now)); [exact R|destruct x; simpl; auto; congruence|].
    cbn [x_do]. rewrite E. reflexivity.
  Qed.
  (** A second attempt *)
  Lemma x_retry N x e n now r r1 e2 now2 id r2 : fits o (S (S N)) -> x_reachable ne o N r -> n <> [] -> x <> XIndex -> 
    rg_create_x ne (Some x) e n now r = Ok (None, r1) -> rg_create ne e2 n now2 r1 = Ok (id, r2) ->
    match x with
    | XInit => r2 = r1
    | _ => exists s g c, registered r2 n id s g /\
             cell_create ne (rgo_agg o) e2 now2 (mk_cell None (rg_enabled r) (rg_initializer r)) = Ok (g, c)
    end.
  Proof.
    intros F R HN HX E E2. pose proof (rg_create_reach N x e n now r None r1 R HX E) as R1.
    assert (HX' : Some x <> Some XIndex) by congruence.
    destruct (x_created N (Some x) e n now r None r1 (fits_le o (S (S N)) (S N) ltac:(lia) F) R HN HX' E) as (FL1 & FL2 & _ & _ & CR).
    apply create_none in E2.
    destruct (x_created (S N) None e2 n now2 r1 (Some id) r2 F R1 HN ltac:(discriminate) E2) as (_ & _ & _ & s & g & RG & OLD & NEW).
    rewrite FL1, FL2 in NEW.
    destruct x; try (destruct (NEW CR) as (c & CC); exists s, g, c; auto).
    destruct CR as (id0 & s0 & g0 & RG0 & _). destruct (x_reach_inv (S N) r1 (fits_le o (S (S N)) (S N) ltac:(lia) F) R1) as (k & d & Hk & I).
    pose proof (fits_le o (S (S N)) (S N) ltac:(lia) F) as F'.
    apply (registered_core o (S N) F' k r1 d) in RG0; auto. destruct RG0 as [_ SL]. apply (slot_core o k r1 d n id0 s0 g0 I) in SL as [A B].
    rewrite (create_rest ne None e2 n now2 r1 HN ltac:(discriminate)), A in E2. unfold rest in E2.
    destruct (x_live _ _ _ _ I _ _ A) as (j & Hj & EJ).
    assert (EP : d_id2pos id0 (rg_dict r1) = Ok (posn (rgo_step o) id0)) by (rewrite EJ; apply (x_id2pos o (S N) F' k r1 d j I); lia).
    rewrite EP in E2. cbn [bind] in E2. rewrite B in E2. injection E2 as _ <-. reflexivity.
  Qed.

  (** * pop_all *)
  Lemma x_pop N i f clk r l m a r1 : fits o N -> x_reachable ne o N r -> x_do ne (XPopAll i f clk) r = Ok (XPopThrew l (m, a), r1) ->
    ~ In m (map fst l) /\ NoDup (map fst l) /\ exists im sm gm, registered r m im sm gm /\ forall n id s g, registered r n id s g ->
      if id <=? im then exists g', taken ne f (clk n) g (m_find name_eqb n (l ++ [(m, a)])) g' /\ registered r1 n id s g'
      else registered r1 n id s g /\ ~ In n (map fst l).
  Proof.
    intros F R E. destruct (x_reach_inv N r F R) as (k & d & Hk & I). cbn [x_do] in E.
    destruct (rg_pop_all_x ne i f clk r) as [[[l0 x] r2]| |] eqn:EC; cbn [bind] in E; try discriminate.
    destruct x as [p|]; [|discriminate]. injection E as -> -> ->.
    destruct (pop_x_cell ne o N F k r d i f clk l (Some (m, a)) r1 I Hk EC) as (I' & FL & _ & ND & im & sm & gm & SM & SP).
    rewrite map_app in ND. cbn [map fst] in ND. split; [intros H; apply NoDup_remove_2 in ND; apply ND; now rewrite app_nil_r|].
    split; [apply NoDup_remove_1 in ND; now rewrite app_nil_r in ND|]. exists im, sm, gm. 
    assert (HM : m <> []).
    { intros ->. apply (slot_core o k r d [] im sm gm I) in SM as [X _]. rewrite (x_noname _ _ _ _ I) in X. discriminate. }
    split; [apply (registered_core o N F k r d); auto|].
    intros n id s g RG. apply (registered_core o N F k r d) in RG; auto. destruct RG as [HN SN]. specialize (SP n). rewrite SN in SP.
    destruct (id <=? im).
    - destruct SP as [SP SLOT]. unfold cell_popped, cellof in SP. rewrite SN in SP. cbn [cell_do cl_agg] in SP.
      destruct (g_call ne (GoSeparate 0 false f (clk n)) g) as [[o1 g1]| |] eqn:E1; cbn [bind] in SP; try discriminate.
      destruct (g_call ne (if f then GoForcePop else GoPop) g1) as [[o2 g2]| |] eqn:E2; cbn [bind] in SP; try discriminate.
      injection SP as EP EG. exists g2. split; [exists o1, g1, o2; auto|]. apply (registered_core o N F k r1 d); auto. split; auto.
      destruct SLOT as (g' & SLOT). rewrite SLOT in EG |- *. injection EG as <-. reflexivity.
    - destruct SP as [SP1 SP2]. split; [apply (registered_core o N F k r1 d); auto; rewrite SP1; auto|].
      apply (m_find_none_in ne N) in SP2. rewrite map_app in SP2. intros H. apply SP2. apply in_or_app. auto.
  Qed.

  (** * del is defined if no growth of the array has failed *)
  Definition Full (r : registry) : Prop :=
    forall n id, m_find name_eqb n (d_dict (rg_dict r)) = Some id -> (posn (rgo_step o) id < length (rg_arr r))%nat.
  Lemma Full_len r r' : Full r -> (forall n id, m_find name_eqb n (d_dict (rg_dict r')) = Some id -> m_find name_eqb n (d_dict (rg_dict r)) = Some id) ->
    (length (rg_arr r) <= length (rg_arr r'))%nat -> Full r'.
  Proof. intros H A B n id E. apply A, H in E. lia. Qed.
  Lemma call_len id op r out r' : rg_call ne id op r = Ok (out, r') -> rg_dict r' = rg_dict r /\ length (rg_arr r') = length (rg_arr r).
  Proof.
    unfold rg_call. intros E. destruct (rg_get id r) as [[[pos [s1 g1]]|]| |]; cbn [bind] in E; try discriminate.
    - destruct (g_call ne op g1) as [[o4 g4]| |]; cbn [bind] in E; try discriminate. injection E as <- <-. simpl. now rewrite set_nth_length.
    - injection E as <- <-. auto.
  Qed.
  Lemma pop_len f clk : forall is r l r', rg_pop_loop ne f clk is r = Ok (l, r') -> rg_dict r' = rg_dict r /\ length (rg_arr r') = length (rg_arr r).
  Proof.
    induction is as [|i is IH]; intros r l r' E; cbn [rg_pop_loop] in E; [injection E as <- <-; auto|].
    destruct (d_pos2id i (rg_dict r)) as [id| |]; cbn [bind] in E; try discriminate.
    destruct (rg_get id r) as [[[pos [s g]]|]| |]; cbn [bind] in E; try discriminate.
    - destruct (g_call ne (GoSeparate _ _ _ _) g) as [[o1 g1]| |]; cbn [bind] in *; try discriminate.
      destruct (g_call ne (if f then _ else _) g1) as [[o2 g3]| |]; cbn [bind] in *; try discriminate.
      destruct (rg_pop_loop ne f clk is _) as [[l2 r2]| |] eqn:EL; cbn [bind] in E; try discriminate. injection E as <- <-.
      apply IH in EL. simpl in EL. rewrite set_nth_length in EL. exact EL.
    - destruct (rg_pop_loop ne f clk is r) as [[l2 r2]| |] eqn:EL; cbn [bind] in E; try discriminate. injection E as <- <-. eauto.
  Qed.
  Lemma create_full N x e n now k r d res r1 : fits o N -> (k <= N)%nat -> XI o k r d -> Full r -> x <> Some XIndex -> x <> Some XResize ->
    rg_create_x ne x e n now r = Ok (res, r1) -> Full r1.
  Proof.
    intros F Hk I FU HX HR E. destruct n as [|a n]; [simpl in E; injection E as <- <-; auto|].
    rewrite create_rest in E by (auto; discriminate).
    assert (AUX : forall k0 r0 d0 id, XI o k0 r0 d0 -> (k0 <= S N)%nat -> m_find name_eqb (a :: n) (d_dict (rg_dict r0)) = Some id ->
       (forall m i, m_find name_eqb m (d_dict (rg_dict r0)) = Some i -> i = id \/ (posn (rgo_step o) i < length (rg_arr r0))%nat) ->
       rest ne x e now id r0 = Ok (res, r1) -> Full r1).
    { intros k0 r0 d0 id I0 Hk0 EN B E0. unfold rest in E0. destruct (x_live _ _ _ _ I0 _ _ EN) as (j & Hj & EJ).
      assert (EP : d_id2pos id (rg_dict r0) = Ok (posn (rgo_step o) id)) by (rewrite EJ; apply (x_id2pos o N F k0 r0 d0 j I0); lia).
      rewrite EP in E0. cbn [bind] in E0.
      assert (LEN : forall g, length (set_nth (posn (rgo_step o) id) (Some (rg_next r0, g)) (resize (S (posn (rgo_step o) id)) (rg_arr r0)))
                    = length (resize (S (posn (rgo_step o) id)) (rg_arr r0))) by (intros; apply set_nth_length).
      assert (L1 : (S (posn (rgo_step o) id) <= length (resize (S (posn (rgo_step o) id)) (rg_arr r0)))%nat) by apply resize_length.
      assert (L2 : (length (rg_arr r0) <= length (resize (S (posn (rgo_step o) id)) (rg_arr r0)))%nat).
      { unfold resize. rewrite app_length. lia. }
      assert (G : forall r', rg_dict r' = rg_dict r0 -> length (rg_arr r') = length (resize (S (posn (rgo_step o) id)) (rg_arr r0)) -> Full r').
      { intros r' D L m i Em. rewrite D in Em. rewrite L. destruct (B m i Em) as [->|]; lia. }
      destruct (nth_error (rg_arr r0) (posn (rgo_step o) id)) as [[y|]|] eqn:EA.
      1: { injection E0 as <- <-. intros m i Em. destruct (B m i Em) as [->|]; auto. apply nth_error_lt in EA. exact EA. }
      all: destruct x as [[]|]; try congruence;
        try (injection E0 as <- <-; apply G; reflexivity);
        (destruct (agg_new (rg_opt r0) (ce_clock e) (ce_rnd e) now) as [g| |]; cbn [bind] in E0; try discriminate;
         try (destruct (rg_enabled r0 && rg_initializer r0); [injection E0 as <- <-; apply G; [reflexivity|apply LEN]|]);
         destruct (rg_init_x ne e g r0) as [g1| |]; cbn [bind] in E0; try discriminate; injection E0 as <- <-; apply G; [reflexivity|apply LEN]). }
    destruct (m_find name_eqb (a :: n) (d_dict (rg_dict r))) as [id|] eqn:EN.
    - apply (AUX k r d id I ltac:(lia) EN); auto. intros m i Em. right. eauto.
    - destruct (new_id (ce_pick e) (rg_dict r)) as [[id c] fr] eqn:EI.
      destruct (enter_core ne o N F k r d (ce_pick e) (a :: n) id c fr I Hk ltac:(discriminate) EN EI) as (k' & Hk' & I1 & OC & NI).
      assert (HXD : x <> Some XDict \/ x = Some XDict) by (destruct x as [[]|]; auto; left; discriminate).
      destruct HXD as [HXD| ->]; [|injection E as <- <-; exact FU].
      set (d1 := mk_dict c (d_step (rg_dict r)) _ _ _) in *. 
      assert (E2 : rest ne x e now id (core r d1) = Ok (res, r1)) by (destruct x as [[]|]; auto; congruence).
      assert (FI : forall m, m_find name_eqb m (d_dict (rg_dict (core r d1))) = if name_eqb m (a :: n) then Some id else m_find name_eqb m (d_dict (rg_dict r))).
      { intros m. unfold d1. simpl. apply m_find_insert. auto. }
      refine (AUX k' (core r d1) _ id I1 ltac:(lia) _ _ E2).
      + rewrite FI, name_eqb_refl. reflexivity.
      + intros m i. rewrite FI. destruct (name_eqb m (a :: n)); [intros X; injection X as <-; auto|]. intros Em. right. apply FU in Em. exact Em.
  Qed.
  Lemma do_full N k r d op out r1 : fits o N -> (k <= N)%nat -> XI o k r d -> Full r -> not_between op -> grown op -> x_do ne op r = Ok (out, r1) -> Full r1.
  Proof.
    intros F Hk I FU NB GR E. destruct op as [op|x e m now|m|i f clk]; cbn [x_do] in E.
    - destruct (rg_do ne op r) as [[o1 r2]| |] eqn:EO; cbn [bind] in E; try discriminate. injection E as <- <-.
      destruct op as [e m now|id g|e m rd c1 c2|f clk|v|v|m|id|id h|e m h now|p x c1 c2]; simpl rg_do in EO.
      + destruct (rg_create ne e m now r) as [[id r3]| |] eqn:EC; cbn [bind] in EO; try discriminate. injection EO as <- <-.
        apply create_none in EC. eapply (create_full N None); eauto; discriminate.
      + destruct (rg_call ne id g r) as [[o2 r3]| |] eqn:EC; cbn [bind] in EO; try discriminate. injection EO as <- <-.
        destruct (call_len _ _ _ _ _ EC) as [D L]. eapply Full_len; eauto; [now rewrite D|lia].
      + unfold rg_add_name in EO. destruct (rg_create ne e m _ r) as [[id r3]| |] eqn:EC; cbn [bind] in EO; try discriminate.
        destruct (rg_call ne id _ r3) as [[o3 r4]| |] eqn:EK; cbn [bind] in EO; try discriminate. injection EO as <- <-.
        apply create_none in EC. assert (FU3 : Full r3) by (eapply (create_full N None); eauto; discriminate).
        destruct (call_len _ _ _ _ _ EK) as [D L]. eapply Full_len; eauto; [now rewrite D|lia].
      + destruct (rg_pop_all ne f clk r) as [[l r3]| |] eqn:EC; cbn [bind] in EO; try discriminate. injection EO as <- <-.
        destruct (pop_len _ _ _ _ _ _ EC) as [D L]. eapply Full_len; eauto; [now rewrite D|lia].
      + injection EO as <- <-. eapply Full_len; [exact FU|auto|]. simpl. rewrite map_length. lia.
      + injection EO as <- <-. exact FU.
      + destruct (rg_del m r) as [[b r3]| |] eqn:EC; cbn [bind] in EO; try discriminate. injection EO as <- <-.
        unfold rg_del in EC. destruct (d_get_id m (rg_dict r) =? bad_id); [injection EC as <- <-; auto|].
        destruct (d_id2pos _ _); cbn [bind] in EC; try discriminate. destruct (_ <? _)%nat; [|discriminate].
        destruct (d_free_id _ _) as [b' d'] eqn:ED. injection EC as <- <-. eapply Full_len; [exact FU| |simpl; rewrite set_nth_length; lia].
        simpl. intros n0 i0. unfold d_free_id in ED. destruct (m_find Z.eqb _ (d_index (rg_dict r))) as [n1|]; [|injection ED as <- <-; auto].
        injection ED as <- <-. simpl. rewrite m_find_erase by apply name_eqb_spec. destruct (name_eqb n1 n0); [discriminate|auto].
      + injection EO as <- <-. exact FU.
      + destruct (rg_pusher id h r); cbn [bind] in EO; try discriminate. injection EO as <- <-. exact FU.
      + unfold rg_pusher_name in EO. destruct (rg_create ne e m now r) as [[id r3]| |] eqn:EC; cbn [bind] in EO; try discriminate.
        destruct (rg_pusher id h r3) as [p| |]; cbn [bind] in EO; try discriminate. injection EO as <- <-.
        apply create_none in EC. eapply (create_full N None); eauto; discriminate.
      + destruct (rg_call_pusher ne p x c1 c2 r) as [[l r3]| |] eqn:EC; cbn [bind] in EO; try discriminate. injection EO as <- <-.
        unfold rg_call_pusher in EC. destruct (find_obj (rp_obj p) (rg_arr r)) as [[pos g]|].
        * destruct (g_call_pusher _ _ _) as [[l2 g2]| |]; cbn [bind] in EC; try discriminate. injection EC as <- <-.
          eapply Full_len; [exact FU|auto|]. simpl. rewrite set_nth_length. lia.
        * injection EC as <- <-. exact FU.
    - destruct (rg_create_x ne (Some x) e m now r) as [[res r2]| |] eqn:EC; cbn [bind] in E; try discriminate. injection E as <- <-.
      eapply (create_full N (Some x)); eauto; intros X; injection X as ->; [exact NB|exact GR].
    - destruct (rg_del_x m r) as [[b r2]| |] eqn:EC; cbn [bind] in E; try discriminate. injection E as <- <-.
      unfold rg_del_x in EC. destruct (d_get_id m (rg_dict r) =? bad_id); [injection EC as <- <-; auto|].
      destruct (d_id2pos _ _); cbn [bind] in EC; try discriminate. destruct (_ <? _)%nat; [|discriminate]. injection EC as <- <-.
      eapply Full_len; [exact FU|auto|]. simpl. rewrite set_nth_length. lia.
    - destruct (rg_pop_all_x ne i f clk r) as [[[l x] r2]| |] eqn:EC; cbn [bind] in E; try discriminate. injection E as <- <-.
      unfold rg_pop_all_x in EC. apply pop_x_split in EC. destruct x as [p|].
      + destruct EC as (is1 & jp & is2 & r3 & id & pos & s0 & g0 & _ & EL & _). destruct (pop_len _ _ _ _ _ _ EL) as [D L].
        eapply Full_len; eauto; [now rewrite D|lia].
      + destruct (pop_len _ _ _ _ _ _ EC) as [D L]. eapply Full_len; eauto; [now rewrite D|lia].
  Qed.
  Lemma run_full : forall ops k r d outs r', fits o (k + length ops) -> XI o k r d -> Full r -> Forall not_between ops -> Forall grown ops ->
    x_run ne r ops = Ok (outs, r') -> exists k' d', (k' <= k + length ops)%nat /\ XI o k' r' d' /\ Full r'.
  Proof.
    induction ops as [|op ops IH]; intros k r d outs r' F I FU NB GR E; cbn [x_run] in E.
    - injection E as <- <-. exists k, d. split; [lia|]. auto.
    - destruct (x_do ne op r) as [[o1 r1]| |] eqn:E1; cbn [bind] in E; try discriminate.
      destruct (x_run ne r1 ops) as [[os r2]| |] eqn:E2; cbn [bind] in E; try discriminate. injection E as <- <-. simpl in F.
      inversion NB as [|? ? NB1 NB2]; subst. inversion GR as [|? ? GR1 GR2]; subst.
      destruct (x_do_sim ne o _ F k r d op o1 r1 I ltac:(lia) E1 NB1) as (k1 & d1 & L1 & I1 & _).
      pose proof (do_full _ k r d op o1 r1 F ltac:(lia) I FU NB1 GR1 E1) as FU1.
      destruct (IH k1 r1 d1 os r2 (fits_le o (k + S (length ops)) (k1 + length ops) ltac:(lia) F) I1 FU1 NB2 GR2 E2) as (k2 & d2 & L2 & I2 & FU2).
      exists k2, d2. split; [simpl; lia|]. auto.
  Qed.
  Lemma x_del_defined ops outs r n : fits o (length ops) -> Forall not_between ops -> Forall grown ops -> x_run ne (rg_new o) ops = Ok (outs, r) ->
    exists r1, rg_del n r = Ok (false, r1) /\ (n <> [] -> (forall i s g, ~ registered r1 n i s g) /\ (forall i, rg_get_name i r1 <> n)) /\
      (forall m i s g, m <> n -> (registered r1 m i s g <-> registered r m i s g)).
  Proof.
    intros F NB GR E. destruct (run_full ops 0 (rg_new o) _ outs r F (XI_new o) ltac:(intros ? ? X; discriminate) NB GR E) as (k & d & Hk & I & FU).
    simpl in Hk. assert (TOT : exists b r1, rg_del n r = Ok (b, r1)).
    { unfold rg_del, d_get_id. destruct (m_find name_eqb n (d_dict (rg_dict r))) as [id|] eqn:EN; [|rewrite Z.eqb_refl; eauto].
      destruct (id =? bad_id); eauto. destruct (x_live _ _ _ _ I _ _ EN) as (j & Hj & EJ).
      assert (EP : d_id2pos id (rg_dict r) = Ok (posn (rgo_step o) id)) by (rewrite EJ; apply (x_id2pos o (length ops) F k r d j I); lia).
      rewrite EP. cbn [bind]. pose proof (FU _ _ EN) as L. apply Nat.ltb_lt in L. rewrite L. destruct (d_free_id id (rg_dict r)); eauto. }
    destruct TOT as (b & r1 & ED). destruct n as [|a n].
    - rewrite (proj1 (del_empty o k r d I)) in ED |- *. exists r. split; auto. split; [congruence|]. tauto.
    - destruct (del_core ne o (length ops) F k r d (a :: n) b r1 I Hk ltac:(discriminate) ED) as (d' & I' & FL & SN & SO & MF & ->).
      exists r1. split; auto. split.
      + intros HN. split; [apply (registered_none (length ops) k r1 d' _ F I' Hk HN); auto|].
        intros i X. unfold rg_get_name, d_get_name in X. destruct (m_find Z.eqb i (d_index (rg_dict r1))) as [q|] eqn:EQ; [|discriminate]. subst q.
        apply (x_inv _ _ _ _ I') in EQ. congruence.
      + intros m i s g NE. rewrite (registered_core o (length ops) F k r1 d' m i s g I' Hk), (registered_core o (length ops) F k r d m i s g I Hk).
        rewrite (SO m NE). tauto.
  Qed.
  (** A del that threw *)
  Lemma x_del_threw N r n r1 : fits o N -> x_reachable ne o N r -> n <> [] -> rg_del_x n r = Ok (None, r1) ->
    (forall i s g, ~ registered r1 n i s g) /\ (forall m i s g, m <> n -> (registered r1 m i s g <-> registered r m i s g)) /\
    exists id, rg_get_name id r1 = n.
  Proof.
    intros F R HN E. destruct (x_reach_inv N r F R) as (k & d & Hk & I).
    destruct (del_x_core ne o N F k r d n None r1 I Hk HN E) as (d' & I' & FL & SN & SO & D & _).
    split; [apply (registered_none N k r1 d' _ F I' Hk HN); auto|]. split.
    - intros m i s g NE. rewrite (registered_core o N F k r1 d' m i s g I' Hk), (registered_core o N F k r d m i s g I Hk). rewrite (SO m NE). tauto.
    - unfold rg_del_x, d_get_id in E. destruct (m_find name_eqb n (d_dict (rg_dict r))) as [id|] eqn:EN; [|rewrite Z.eqb_refl in E; discriminate].
      exists id. unfold rg_get_name, d_get_name. rewrite D. apply (x_inv _ _ _ _ I) in EN. now rewrite EN.
  Qed.

  (** * A call that returned *)
  Lemma x_create_returned x e n now r id r1 : rg_create_x ne (Some x) e n now r = Ok (Some id, r1) -> rg_create ne e n now r = Ok (id, r1).
  Proof.
    intros E. assert (H : rg_create_x ne None e n now r = Ok (Some id, r1)).
    { unfold rg_create_x in *. destruct n as [|a n]; auto. unfold d_create_id_x in *.
      destruct (m_find name_eqb (a :: n) (d_dict (rg_dict r))) as [i|].
      - destruct (d_id2pos i (rg_dict r)) as [pos| |]; cbn [bind] in *; try discriminate.
        destruct (nth_error (rg_arr r) pos) as [[y|]|]; auto.
        all: destruct x; auto; try discriminate; try (destruct (_ <=? _)%nat; [discriminate|auto]);
          (destruct (agg_new (rg_opt r) (ce_clock e) (ce_rnd e) now) as [g| |]; cbn [bind] in *; try discriminate;
           destruct (rg_enabled r && rg_initializer r); [discriminate|auto]).
      - destruct (d_free (rg_dict r)) as [|f0 fr0]; destruct x; auto; try discriminate.
        all: cbv zeta beta iota in *.
        all: match goal with H : bind ?p _ = _ |- _ => destruct p as [pos| |]; cbn [bind] in *; try discriminate end.
        all: destruct (nth_error (rg_arr r) pos) as [[y|]|]; auto; try discriminate.
        all: try (destruct (_ <=? _)%nat; [discriminate|auto]; fail).
        all: destruct (agg_new (rg_opt r) (ce_clock e) (ce_rnd e) now) as [g| |]; cbn [bind] in *; try discriminate;
             destruct (rg_enabled r && rg_initializer r); [discriminate|auto]. }
    rewrite create_x_none in H. destruct (rg_create ne e n now r) as [[i r2]| |]; cbn [bind] in H; try discriminate. congruence.
  Qed.
  Lemma x_returned op r out r1 : x_do ne op r = Ok (XRet out, r1) -> rg_do ne (plain op) r = Ok (out, r1).
  Proof.
    destruct op as [op|x e n now|n|i f clk]; cbn [x_do plain]; intros E.
    - destruct (rg_do ne op r) as [[o1 r2]| |]; cbn [bind] in E; try discriminate. congruence.
    - destruct (rg_create_x ne (Some x) e n now r) as [[[id|] r2]| |] eqn:EC; cbn [bind] in E; try discriminate. injection E as <- <-.
      cbn [rg_do]. rewrite (x_create_returned _ _ _ _ _ _ _ EC). reflexivity.
    - destruct (rg_del_x n r) as [[[b|] r2]| |] eqn:EC; cbn [bind] in E; try discriminate. injection E as <- <-. cbn [rg_do].
      unfold rg_del_x, rg_del, d_free_id_x, d_free_id in *. destruct (d_get_id n (rg_dict r) =? bad_id); [injection EC as <- <-; reflexivity|].
      destruct (d_id2pos _ _) as [pos| |]; cbn [bind] in *; try discriminate. destruct (pos <? _)%nat; [|discriminate].
      destruct (m_find Z.eqb _ (d_index (rg_dict r))); [discriminate|]. injection EC as <- <-. reflexivity.
    - destruct (rg_pop_all_x ne i f clk r) as [[[l [p|]] r2]| |] eqn:EC; cbn [bind] in E; try discriminate. injection E as <- <-.
      unfold rg_pop_all_x in EC. apply pop_x_split in EC. cbn [rg_do]. unfold rg_pop_all. rewrite EC. reflexivity.
  Qed.
End Final.
