(** No safe call on a registry, or on a program's objects, fails. *)
From Coq Require Import ZArith List Bool Permutation Lia Arith Ascii.
From Verif Require Import Base SortFacts ModelTypes ModelReducer SpecReducer ModelSeparator SpecSeparator ModelAggregator SpecAggregator
  AggProofs AggRun AggFinal AggSafe ModelRegistry SpecRegistry RegProofs RegFinal ModelComposite ModelMeters ModelSystem SpecSystem SystemProofs SystemRun SystemFinal SpecTotal.
Import ListNotations.
Local Open Scope Z_scope.

Lemma nth_set {A} i (x y : A) l p : nth_error (set_nth i x l) p = Some y -> y = x \/ nth_error l p = Some y.
Proof.
  destruct (Nat.eq_dec i p) as [->|NE]; [|rewrite set_nth_other by auto; auto].
  intros H. left. pose proof (nth_error_lt _ _ _ H) as L. rewrite set_nth_length in L. rewrite set_nth_same in H by auto. congruence.
Qed.

Section Total.
  Variable ne : nat -> list Z -> list Z.
  Hypothesis Hne : nth_element_ok ne.
  Variable o : rgopts.
  Variable N : nat.
  Hypothesis F : fits o N.
  Hypothesis Hs : 0 < so_step (ao_sep (rgo_agg o)) <= i64_max.
  Notation safe := (GSafe ne (rgo_agg o)).
  Definition RSafe (K : nat) (r : registry) : Prop := forall pos s g, nth_error (rg_arr r) pos = Some (Some (s, g)) -> safe K g.
  Definition TR (k K : nat) (r : registry) : Prop := RInv o k r /\ RSafe K r.

  Lemma RSafe_le K K' r : (K <= K')%nat -> RSafe K r -> RSafe K' r.
  Proof. intros L H pos s g E. eapply GSafe_le; eauto. Qed.
  Lemma RSafe_set K r pos s g : RSafe K r -> safe K g -> RSafe K (rg_set pos (Some (s, g)) r).
  Proof. intros H G p s' g' E. simpl in E. apply nth_set in E as [E|E]; [|eauto]. injection E as -> ->. auto. Qed.
  Lemma step_nz k r : RInv o k r -> (d_step (rg_dict r) =? 0) = false.
  Proof. intros I. rewrite (ri_step _ _ _ I). apply Z.eqb_neq. destruct F as (_ & H & _). lia. Qed.
  Lemma get_total k r id : RInv o k r -> exists p, rg_get id r = Ok p /\ match p with Some (pos, (s, g)) => nth_error (rg_arr r) pos = Some (Some (s, g)) | None => True end.
  Proof.
    intros I. unfold rg_get, d_id2pos. destruct (id =? bad_id); [exists None; auto|]. rewrite (step_nz k r I). cbn [bind].
    destruct (nth_error (rg_arr r) _) as [[[s g]|]|] eqn:E; eexists; (split; [reflexivity|cbn; auto]).
  Qed.

  Lemma create_total k K r e n now : TR k K r -> (k < N)%nat -> env_safe (rgo_agg o) e now -> Z.of_nat (K + init_volume e) < two64 ->
    exists id r' k', rg_create ne e n now r = Ok (id, r') /\ (k' <= S k)%nat /\ TR k' (K + init_volume e) r'.
  Proof.
    intros [I S] Hk (E1 & E2 & E3 & E4) HK.
    assert (X : exists id r', rg_create ne e n now r = Ok (id, r') /\ RSafe (K + init_volume e) r').
    { assert (SAME : RSafe (K + init_volume e) r) by (eapply RSafe_le; [|exact S]; lia).
      unfold rg_create. destruct n as [|c n]; [eauto|]. assert (DS : d_step (snd (d_create_id (ce_pick e) (c :: n) (rg_dict r))) = d_step (rg_dict r)).
      { unfold d_create_id. destruct (m_find _ _ _); auto. destruct (d_free _); auto. }
      destruct (d_create_id (ce_pick e) (c :: n) (rg_dict r)) as [id d]. cbn [snd] in DS. unfold d_id2pos at 1. rewrite DS, (step_nz k r I). cbn [bind].
      set (pos := Z.to_nat _). destruct (nth_error (rg_arr r) pos) as [[x|]|] eqn:EP; [eauto| |].
      1,2: rewrite (ri_opt _ _ _ I); destruct (GSafe_make ne (rgo_agg o) Hs (ce_clock e) (ce_rnd e) now) as (g & EG & G); [repeat (split; auto)|];
        rewrite EG; cbn [bind];
        (assert (Y : exists g1, (if negb (rg_enabled r) then Ok (g_enable false g) else if rg_initializer r then
           match ce_init e with Some rd => '(_, g') <- g_add_red ne (ce_c1 e) (ce_c2 e) rd g ;; Ok g' | None => Ok g end else Ok g) = Ok g1 /\ safe (K + init_volume e) g1);
         [|destruct Y as (g1 & -> & G1); cbn [bind]; do 2 eexists; split; [reflexivity|]; intros p s' g' EN; cbn [rg_arr] in EN; apply nth_set in EN as [EN|EN];
           [injection EN as -> ->; exact G1|apply resize_some in EN; eauto]]).
      1,2: destruct (negb (rg_enabled r)); [eexists; split; [reflexivity|]; apply GSafe_enable; auto; eapply GSafe_le; [|exact G]; lia|];
        destruct (rg_initializer r); [|eexists; split; [reflexivity|]; eapply GSafe_le; [|exact G]; lia];
        unfold init_volume in *; destruct (ce_init e) as [d0|]; [|eexists; split; [reflexivity|]; eapply GSafe_le; [|exact G]; lia];
        destruct E4 as [T1 T2]; destruct (GSafe_call ne Hne (rgo_agg o) Hs 0 g _ G T1 T2) as (q & g' & EC & G'); [unfold two64; lia|];
        cbn [g_call] in EC; destruct (g_add_red ne (ce_c1 e) (ce_c2 e) d0 g) as [[b g2]| |]; cbn [bind] in *; try discriminate; injection EC as _ <-;
        eexists; (split; [reflexivity|]); eapply GSafe_le; [|exact G']; simpl; lia. }
    destruct X as (id & r' & E & S'). destruct (create_sim ne o N F k r e n now id r' I ltac:(lia) E) as [C1 C2].
    destruct n as [|c n].
    - destruct (C1 eq_refl) as [-> ->]. exists bad_id, r, k. repeat (split; auto).
    - destruct (C2 ltac:(discriminate)) as (k' & g1 & L & I' & _). exists id, r', k'. repeat (split; auto). lia.
  Qed.
  Lemma call_total k K r id op : TR k K r -> (k <= N)%nat -> call_safe (rgo_agg o) op -> Z.of_nat K < two64 ->
    exists out r', rg_call ne id op r = Ok (out, r') /\ TR k (K + length (gop_values op)) r'.
  Proof.
    intros [I S] Hk [T1 T2] HK.
    assert (X : exists out r', rg_call ne id op r = Ok (out, r') /\ RSafe (K + length (gop_values op)) r').
    { unfold rg_call. destruct (get_total k r id I) as ([[pos [s g]]|] & -> & EN); cbn [bind].
      - destruct (GSafe_call ne Hne (rgo_agg o) Hs K g op (S _ _ _ EN) T1 T2 HK) as (q & g' & -> & G). cbn [bind]. do 2 eexists. split; [reflexivity|].
        apply RSafe_set; auto. eapply RSafe_le; [|exact S]. lia.
      - do 2 eexists. split; [reflexivity|]. eapply RSafe_le; [|exact S]. lia. }
    destruct X as (out & r' & E & S'). exists out, r'. split; auto. split; auto. apply (call_inv ne o N F k r id op out r' I Hk E).
  Qed.
  Lemma pop_loop_total force clk K : (forall n, time_ok (so_step (ao_sep (rgo_agg o))) (clk n)) -> Z.of_nat K < two64 ->
    forall is r, (d_step (rg_dict r) =? 0) = false -> RSafe K r -> exists l r', rg_pop_loop ne force clk is r = Ok (l, r') /\ RSafe K r'.
  Proof.
    intros HC HK. induction is as [|i is IH]; intros r Hd S; cbn [rg_pop_loop]; [eauto|].
    unfold d_pos2id at 1. rewrite Hd. cbn [bind]. set (id := u64 _).
    assert (X : exists l r', (p <- rg_get id r ;; match p with None => Ok ([], r) | Some (pos, (s, g)) =>
              '(_, g1) <- g_call ne (GoSeparate 0 false force (clk (rg_get_name id r))) g ;;
              '(o, g2) <- g_call ne (if force then GoForcePop else GoPop) g1 ;;
              Ok (match out_ptr o with Some a => [(rg_get_name id r, a)] | None => [] end, rg_set pos (Some (s, g2)) r) end) = Ok (l, r') /\
        RSafe K r' /\ rg_dict r' = rg_dict r).
    { unfold rg_get, d_id2pos. destruct (id =? bad_id); cbn [bind]; [eauto|]. rewrite Hd. cbn [bind].
      destruct (nth_error (rg_arr r) _) as [[[s g]|]|] eqn:EN; cbn [bind]; eauto.
      assert (T0 : time_ok (so_step (ao_sep (rgo_agg o))) 0) by (unfold time_ok, i64_min, i64_max in *; lia).
      destruct (GSafe_call ne Hne (rgo_agg o) Hs K g (GoSeparate 0 false force (clk (rg_get_name id r))) (S _ _ _ EN) Logic.I (conj T0 (HC _)) HK) as (q & g1 & -> & G1).
      cbn [bind]. destruct (GSafe_call ne Hne (rgo_agg o) Hs _ g1 (if force then GoForcePop else GoPop) G1) as (q2 & g2 & -> & G2);
        [destruct force; exact Logic.I|destruct force; exact Logic.I|simpl; lia|].
      cbn [bind]. do 2 eexists. split; [reflexivity|]. split; auto. apply RSafe_set; auto. eapply GSafe_le; [|exact G2]. destruct force; simpl; lia. }
    destruct X as (l & r1 & X & S1 & D1). destruct (rg_get id r) as [p| |]; cbn [bind] in *; try discriminate. rewrite X. cbn [bind].
    destruct (IH r1) as (l2 & r2 & -> & S2); [now rewrite D1|auto|]. cbn [bind]. eauto.
  Qed.
  Lemma pop_all_total force clk k K r : TR k K r -> (k <= N)%nat -> (forall n, time_ok (so_step (ao_sep (rgo_agg o))) (clk n)) -> Z.of_nat K < two64 ->
    exists l r', rg_pop_all ne force clk r = Ok (l, r') /\ TR k K r'.
  Proof.
    intros [I S] Hk HC HK. destruct (pop_loop_total force clk K HC HK (seq 0 (length (rg_arr r))) r (step_nz k r I) S) as (l & r' & E & S').
    exists l, r'. split; auto. split; auto. apply (pop_all_spec ne o N F force clk k r l r' I Hk E).
  Qed.
  Lemma enable_total v k K r : TR k K r -> TR k K (rg_enable v r).
  Proof.
    intros [I S]. split; [apply (enable_sim o k r v I)|]. intros pos s g E. simpl in E. rewrite nth_error_map in E.
    destruct (nth_error (rg_arr r) pos) as [[[s0 g0]|]|] eqn:E0; simpl in E; try discriminate. injection E as _ <-. apply GSafe_enable; eauto.
  Qed.
  Lemma del_total n k K r : TR k K r -> (k <= N)%nat -> exists b r', rg_del n r = Ok (b, r') /\ TR k K r'.
  Proof.
    intros [I S] Hk.
    assert (X : exists b r', rg_del n r = Ok (b, r') /\ RSafe K r').
    { unfold rg_del, d_get_id. destruct (m_find name_eqb n (d_dict (rg_dict r))) as [id|] eqn:EN; [|rewrite Z.eqb_refl; eauto].
      destruct (id =? bad_id); [eauto|]. destruct (ri_live _ _ _ I _ _ EN) as (j & L & ->). rewrite (id2pos_ok o N F k r j I ltac:(lia)). cbn [bind].
      destruct (ri_slot _ _ _ I _ _ EN) as (s & g & EA). pose proof (nth_error_lt _ _ _ EA) as L2. apply Nat.ltb_lt in L2. rewrite L2.
      destruct (d_free_id _ _) as [b d]. do 2 eexists. split; [reflexivity|]. intros p s' g' E. simpl in E. apply nth_set in E as [E|E]; [discriminate|eauto]. }
    destruct X as (b & r' & E & S'). exists b, r'. split; auto. split; auto. apply (del_sim o N F k r n b r' I Hk E).
  Qed.
  Lemma push_total p x c1 c2 k K r : TR k K r -> (k <= N)%nat -> call_safe (rgo_agg o) (GoPush x true c1 c2) -> Z.of_nat K < two64 ->
    exists l r', rg_call_pusher ne p x c1 c2 r = Ok (l, r') /\ TR k (K + length (op_values (sm_op x))) r'.
  Proof.
    intros [I S] Hk [T1 T2] HK.
    assert (X : exists l r', rg_call_pusher ne p x c1 c2 r = Ok (l, r') /\ RSafe (K + length (op_values (sm_op x))) r').
    { assert (SAME : RSafe (K + length (op_values (sm_op x))) r) by (eapply RSafe_le; [|exact S]; lia).
      unfold rg_call_pusher. destruct (find_obj (rp_obj p) (rg_arr r)) as [[pos g]|] eqn:EF; [|eauto]. apply find_obj_some in EF. unfold g_call_pusher.
      destruct (pusher_live _ _); cbn [bind].
      - destruct (GSafe_call ne Hne (rgo_agg o) Hs K g (GoPush x (pu_handler (rp_pu p)) c1 c2) (S _ _ _ EF) T1 T2 HK) as (q & g' & -> & G). cbn [bind].
        do 2 eexists. split; [reflexivity|]. apply RSafe_set; auto.
      - do 2 eexists. split; [reflexivity|]. apply RSafe_set; eauto. }
    destruct X as (l & r' & E & S'). exists l, r'. split; auto. split; auto. apply (push_sim ne o N F k r p x c1 c2 l r' I Hk E).
  Qed.
  Lemma pusher_total id h k r : RInv o k r -> exists p, rg_pusher id h r = Ok p.
  Proof. intros I. unfold rg_pusher. destruct (get_total k r id I) as (p & -> & _). cbn [bind]. eauto. Qed.

  Lemma rg_do_total op k K r : TR k K r -> (k + rg_ids op <= N)%nat -> rgop_safe (rgo_agg o) op -> Z.of_nat (K + rg_volume op) < two64 ->
    exists out r' k', rg_do ne op r = Ok (out, r') /\ (k' <= k + rg_ids op)%nat /\ TR k' (K + rg_volume op) r'.
  Proof.
    intros T Hk HS HK. assert (NV : TR k (K + 0) r) by now rewrite Nat.add_0_r.
    destruct op as [e n now|id g|e n d c1 c2|force clk|v|v|n|id|id h|e n h now|p x c1 c2]; cbn [rg_do rg_volume rgop_safe rg_ids] in *.
    - destruct (create_total k K r e n now T ltac:(lia) HS HK) as (id & r' & k' & -> & L & T'). cbn [bind]. do 2 eexists. exists k'. split; [reflexivity|]. split; [lia|auto].
    - destruct (call_total k K r id g T ltac:(lia) HS ltac:(lia)) as (out & r' & -> & T'). cbn [bind]. do 2 eexists. exists k. split; [reflexivity|]. split; [lia|auto].
    - destruct HS as [H1 H2]. unfold rg_add_name. destruct (create_total k K r e n _ T ltac:(lia) H1 ltac:(lia)) as (id & r' & k' & -> & L & T'). cbn [bind].
      destruct (call_total k' _ r' id _ T' ltac:(lia) H2 ltac:(lia)) as (out & r2 & -> & T2). cbn [bind]. do 2 eexists. exists k'. split; [reflexivity|]. split; [lia|].
      cbn [gop_values sm_op op_values] in T2. now rewrite Nat.add_assoc.
    - destruct (pop_all_total force clk k K r T ltac:(lia) HS ltac:(lia)) as (l & r' & -> & T'). cbn [bind]. do 2 eexists. exists k. split; [reflexivity|]. split; [lia|]. now rewrite Nat.add_0_r.
    - do 2 eexists. exists k. split; [reflexivity|]. split; [lia|]. apply enable_total; exact NV.
    - do 2 eexists. exists k. split; [reflexivity|]. split; [lia|]. destruct NV as [I S]. split; [|exact S]. destruct I. constructor; auto.
    - destruct (del_total n k K r T ltac:(lia)) as (b & r' & -> & T'). cbn [bind]. do 2 eexists. exists k. split; [reflexivity|]. split; [lia|]. now rewrite Nat.add_0_r.
    - do 2 eexists. exists k. split; [reflexivity|]. split; [lia|auto].
    - destruct (pusher_total id h k r (proj1 T)) as (p & ->). cbn [bind]. do 2 eexists. exists k. split; [reflexivity|]. split; [lia|auto].
    - unfold rg_pusher_name. destruct (create_total k K r e n now T ltac:(lia) HS HK) as (id & r' & k' & -> & L & T'). cbn [bind].
      destruct (pusher_total id h k' r' (proj1 T')) as (p & ->). cbn [bind]. do 2 eexists. exists k'. split; [reflexivity|]. split; [lia|auto].
    - destruct (push_total p x c1 c2 k K r T ltac:(lia) HS ltac:(lia)) as (l & r' & -> & T'). cbn [bind]. do 2 eexists. exists k. split; [reflexivity|]. split; [lia|auto].
  Qed.
  Lemma rg_run_total ops : forall k K r, TR k K r -> (k + list_sum (map rg_ids ops) <= N)%nat -> Forall (rgop_safe (rgo_agg o)) ops ->
    Z.of_nat (K + list_sum (map rg_volume ops)) < two64 -> exists outs r', rg_run ne r ops = Ok (outs, r').
  Proof.
    induction ops as [|op ops IH]; intros k K r T HN HS HK; [simpl; eauto|]. inversion HS; subst. cbn [map list_sum fold_right length] in *.
    fold (list_sum (map rg_volume ops)) in HK. fold (list_sum (map rg_ids ops)) in HN. cbn [rg_run].
    destruct (rg_do_total op k K r T ltac:(lia)) as (out & r1 & k1 & -> & L & T1); auto; [lia|]. cbn [bind].
    destruct (IH k1 _ r1 T1) as (outs & r2 & ->); auto; try lia. cbn [bind]. eauto.
  Qed.

  Lemma comp_total a b c ha hb hc sum k r : RInv o k r -> exists p, rg_composite a b c ha hb hc sum r = Ok p.
  Proof.
    intros I. unfold rg_composite. destruct (pusher_total a ha k r I) as (p1 & ->). destruct (pusher_total b hb k r I) as (p2 & ->).
    destruct (pusher_total c hc k r I) as (p3 & ->). cbn [bind]. destruct p1, p2, p3; eauto.
  Qed.
  Lemma roles_total e n now : (forall x, env_safe (rgo_agg o) (e x) now) -> forall order k K r, TR k K r -> (k + length order <= N)%nat ->
    Z.of_nat (K + list_sum (map (fun x => init_volume (e x)) order)) < two64 ->
    exists ids r' k', create_roles ne order e n now r = Ok (ids, r') /\ (k' <= k + length order)%nat /\
      TR k' (K + list_sum (map (fun x => init_volume (e x)) order)) r'.
  Proof.
    intros HE. induction order as [|x order IH]; intros k K r T HN HK.
    - do 2 eexists. exists k. split; [reflexivity|]. simpl. rewrite !Nat.add_0_r. split; [lia|auto].
    - cbn [map length] in *. set (v := list_sum (map (fun x => init_volume (e x)) order)) in *.
      assert (LS : list_sum (init_volume (e x) :: map (fun x => init_volume (e x)) order) = (init_volume (e x) + v)%nat) by reflexivity. rewrite LS in *.
      cbn [create_roles]. destruct (create_total k K r (e x) (n x) now T ltac:(lia) (HE x) ltac:(lia)) as (id & r1 & k1 & -> & L1 & T1). cbn [bind].
      destruct (IH k1 _ r1 T1 ltac:(lia)) as (ids & r2 & k2 & -> & L2 & T2); [fold v; lia|]. cbn [bind]. fold v in T2.
      do 2 eexists. exists k2. split; [reflexivity|]. split; [lia|]. now rewrite Nat.add_assoc.
  Qed.

  (** ** Programs *)
  Definition TY (k K : nat) (s : sys) : Prop :=
    w_handler (y_wrt s) = true /\ well_kept s /\ outlived s /\ (y_alive s = true -> TR k K (y_reg s)).

  Lemma y_call_total p d x cl k K s : y_alive s = true -> TR k K (y_reg s) -> (k <= N)%nat ->
    call_safe (rgo_agg o) (GoPush x true (fst cl) (snd cl)) -> Z.of_nat K < two64 -> (length (op_values (sm_op x)) = 1)%nat ->
    exists e s', y_call ne p d x cl s = Ok (e, s') /\ TR k (S K) (y_reg s') /\ y_alive s' = true /\ y_funs s' = y_funs s.
  Proof.
    intros A T Hk HS HK HL. unfold y_call.
    assert (X : exists l r', rg_call_opt ne p x (fst cl) (snd cl) (y_reg s) = Ok (l, r') /\ TR k (S K) r').
    { destruct p as [p|]; simpl.
      - destruct (push_total p x (fst cl) (snd cl) k K _ T Hk HS HK) as (l & r' & -> & T'). rewrite HL, Nat.add_1_r in T'. eauto.
      - do 2 eexists. split; [reflexivity|]. destruct T as [I R]. split; auto. eapply RSafe_le; [|exact R]. lia. }
    destruct X as (l & r' & -> & T'). cbn [bind].
    assert (Y : exists e, y_deliver d l (y_set_reg r' s) = Ok e).
    { unfold y_deliver. cbn [y_alive y_set_reg]. rewrite A. destruct l; eauto. destruct d; eauto. }
    destruct Y as (e & ->). cbn [bind]. do 2 eexists. split; [reflexivity|]. auto.
  Qed.
  Lemma y_report_total rp cl k K s : y_alive s = true -> TR k K (y_reg s) -> (k <= N)%nat -> report_fits (y_funs s) rp ->
    report_safe (rgo_agg o) cl (EvReport rp) -> Z.of_nat (K + 3) < two64 ->
    exists e s', y_report ne rp cl s = Ok (e, s') /\ TR k (K + 3) (y_reg s') /\ y_alive s' = true /\ y_funs s' = y_funs s.
  Proof.
    intros A T Hk HF HS HK. unfold report_fits in HF. unfold y_report. cbn [report_safe] in HS. destruct HS as [S1 S2].
    destruct (nth_error (y_funs s) (rp_fun rp)) as [[p id|p to]|], (rp_sizes rp) as [[rd wr]|]; try contradiction.
    - destruct (y_call_total (Some p) (DId id) _ (cl RoTime) k K s A T Hk S1 ltac:(lia) eq_refl) as (e & s' & E & T' & A' & F').
      exists e, s'. split; auto. split; auto. destruct T' as [I R]. split; auto. eapply RSafe_le; [|exact R]. lia.
    - destruct S2 as (U1 & U2 & S2 & S3).
      assert (CNT : forall k0 v c c', is_u64 c' -> call_safe (rgo_agg o) (GoPush (SmScalar (rp_now rp) v c) true (fst (cl k0)) (snd (cl k0))) ->
        call_safe (rgo_agg o) (GoPush (SmScalar (rp_now rp) v c') true (fst (cl k0)) (snd (cl k0)))).
      { intros k0 v c c' U [[[H1 H2] H3] H4]. split; [split; [split; [exact H1|exact U]|exact H3]|exact H4]. }
      destruct (y_call_total (cp_time p) (to RoTime) _ (cl RoTime) k K s A T Hk S1 ltac:(lia) eq_refl) as (e1 & s1 & E1 & T1 & A1 & F1). rewrite E1. cbn [bind].
      destruct (y_call_total (cp_read p) (to RoRead) (SmScalar (rp_now rp) (to_i64 rd) (if cp_sum p then rd else rp_count rp)) (cl RoRead) k _ s1 A1 T1 Hk) as (e2 & s2 & E2 & T2 & A2 & F2);
        [destruct (cp_sum p); eauto|lia|reflexivity|]. rewrite E2. cbn [bind].
      destruct (y_call_total (cp_write p) (to RoWrite) (SmScalar (rp_now rp) (to_i64 wr) (if cp_sum p then wr else rp_count rp)) (cl RoWrite) k _ s2 A2 T2 Hk) as (e3 & s3 & E3 & T3 & A3 & F3);
        [destruct (cp_sum p); eauto|lia|reflexivity|]. rewrite E3. cbn [bind].
      do 2 eexists. split; [reflexivity|]. replace (K + 3)%nat with (S (S (S K))) by lia. split; auto. split; auto. congruence.
  Qed.
  Definition reports (es : list mevent) : nat := length (filter (fun e => match e with EvReport _ => true | _ => false end) es).
  Lemma y_events_total es cl k : (k <= N)%nat -> forall K s, y_alive s = true -> TR k K (y_reg s) ->
    Forall (fun e => match e with EvReport r => report_fits (y_funs s) r | _ => True end) es -> Forall (report_safe (rgo_agg o) cl) es ->
    Z.of_nat (K + 3 * reports es) < two64 ->
    exists e s', y_events ne es cl s = Ok (e, s') /\ TR k (K + 3 * reports es) (y_reg s').
  Proof.
    intros Hk. induction es as [|x es IH]; intros K s A T HF HS HK.
    - cbn [y_events]. do 2 eexists. split; [reflexivity|]. unfold reports. simpl. now rewrite Nat.add_0_r.
    - inversion HF as [|? ? F1 F2]; inversion HS as [|? ? S1 S2]; subst. cbn [y_events].
      set (m := match x with EvReport _ => 1%nat | _ => 0%nat end). assert (RP : reports (x :: es) = (m + reports es)%nat) by (unfold reports, m; destruct x; reflexivity).
      rewrite RP in *.
      assert (X : exists e1 s1, match x with EvReport rp => y_report ne rp cl s | _ => Ok ([], s) end = Ok (e1, s1) /\ TR k (K + 3 * m) (y_reg s1) /\ y_alive s1 = true /\ y_funs s1 = y_funs s).
      { unfold m in *. destruct x as [f|rp|f]; [do 2 eexists; split; [reflexivity|]; simpl; rewrite Nat.add_0_r; auto| |do 2 eexists; split; [reflexivity|]; simpl; rewrite Nat.add_0_r; auto].
        apply y_report_total; auto; try lia. }
      destruct X as (e1 & s1 & -> & T1 & A1 & EF). cbn [bind].
      destruct (IH (K + 3 * m)%nat s1 A1 T1) as (e2 & s2 & -> & T2); [now rewrite EF|auto|lia|]. cbn [bind]. do 2 eexists. split; [reflexivity|].
      replace (K + 3 * (m + reports es))%nat with (K + 3 * m + 3 * reports es)%nat by lia. auto.
  Qed.
  Lemma one_report op pts : (reports (fst (m_do op pts)) <= 1)%nat.
  Proof.
    assert (P : forall now clk p, (reports (map EvReport (fst (p_push now clk p))) <= 1)%nat).
    { intros now clk p. unfold p_push. destruct (p_fun p); [|simpl; auto]. destruct (p_kind p); simpl; auto. }
    assert (S0 : forall f, reports (starts f) = 0%nat) by (intros [|]; reflexivity).
    assert (AP : forall a b, reports (a ++ b) = (reports a + reports b)%nat) by (intros; unfold reports; now rewrite filter_app, app_length).
    destruct op; simpl; repeat match goal with |- context [match m_get ?i ?s with _ => _ end] => destruct (m_get i s) end; simpl; rewrite ?S0; auto.
    - unfold p_reset_fun. cbn [fst]. rewrite AP, S0. rewrite Nat.add_0_r. apply P.
    - destruct (Nat.eqb i j); simpl; auto. destruct (p_fun p); simpl; auto.
  Qed.

  Lemma y_do_total op k K s : TY k K s -> (k + y_ids op <= N)%nat -> y_safe (rgo_agg o) s op -> Z.of_nat (K + y_volume op) < two64 ->
    exists e s' k', y_do ne op s = Ok (e, s') /\ (k' <= k + y_ids op)%nat /\ TY k' (K + y_volume op) s'.
  Proof.
    intros (HH & W & O & T) HN HS HK.
    assert (X : exists e s' k', y_do ne op s = Ok (e, s') /\ (k' <= k + y_ids op)%nat /\ w_handler (y_wrt s') = true /\ (y_alive s' = true -> TR k' (K + y_volume op) (y_reg s'))).
    { destruct op as [id|en m now|id sum|order en m sum now|op0 cl|g|force clk|clk].
      5: { cbn [y_do y_volume y_ids y_safe] in *. rewrite Nat.add_0_r in *. assert (MORE : y_alive s = true -> TR k (K + 3) (y_reg s)).
           { intros A. destruct (T A) as [I R]. split; auto. eapply RSafe_le; [|exact R]. lia. }
           destruct (y_typed op0 s) eqn:ET; [|do 3 eexists; split; [reflexivity|]; split; [apply Nat.le_refl|auto]].
           destruct (do_kept op0 s W ET) as [K1 K2]. pose proof (one_report op0 (y_pts s)) as OR. destruct (m_do op0 (y_pts s)) as [es pts]. cbn [fst snd] in *.
           set (s0 := mk_sys _ _ _ pts) in *. destruct (y_alive s) eqn:A.
           - destruct (y_events_total es cl k ltac:(lia) K s0) as (e & s' & E & T'); auto; [lia|]. rewrite E. do 3 eexists. split; [reflexivity|]. split; [apply Nat.le_refl|].
             split; [rewrite <- HH; change (y_wrt s) with (y_wrt s0)|].
             + clear -E. revert E. generalize s0 as s1. revert e s'. induction es as [|x es IH]; intros e s' s1 E; cbn [y_events] in E; [now injection E as _ <-|].
               destruct (match x with EvReport rp => y_report ne rp cl s1 | _ => Ok ([], s1) end) as [[e1 s2]| |] eqn:E1; cbn [bind] in E; try discriminate.
               destruct (y_events ne es cl s2) as [[e2 s3]| |] eqn:E2; cbn [bind] in E; try discriminate. injection E as _ <-. rewrite (IH _ _ _ E2).
               assert (C : forall p d x cl s e s', y_call ne p d x cl s = Ok (e, s') -> w_handler (y_wrt s') = w_handler (y_wrt s)).
               { intros p d x0 cl0 s4 e4 s5. unfold y_call. destruct (rg_call_opt _ _ _ _ _ _) as [[recs r]| |]; cbn [bind]; try discriminate.
                 destruct (y_deliver _ _ _) as [e5| |]; cbn [bind]; try discriminate. intros H. injection H as _ <-. reflexivity. }
               destruct x as [f|rp|f]; [injection E1 as _ <-; auto| |injection E1 as _ <-; auto]. unfold y_report in E1.
               destruct (nth_error (y_funs s1) (rp_fun rp)) as [[p id|p to]|], (rp_sizes rp) as [[rd wr]|]; try discriminate; [eauto|].
               destruct (y_call ne (cp_time p) _ _ _ s1) as [[e4 s4]| |] eqn:X1; cbn [bind] in E1; try discriminate. apply C in X1.
               destruct (y_call ne (cp_read p) _ _ _ s4) as [[e5 s5]| |] eqn:X2; cbn [bind] in E1; try discriminate. apply C in X2.
               destruct (y_call ne (cp_write p) _ _ _ s5) as [[e6 s6]| |] eqn:X3; cbn [bind] in E1; try discriminate. apply C in X3. injection E1 as _ <-. congruence.
             + intros _. destruct T' as [I R]. split; auto. eapply RSafe_le; [|exact R]. lia.
           - rewrite (dead_events ne es cl s0 (O A) K2). do 3 eexists. split; [reflexivity|]. split; [apply Nat.le_refl|]. split; auto. }
      all: cbn [y_safe] in HS; destruct HS as [A HS]; specialize (T A); cbn [y_do]; rewrite A; cbn [negb]; cbn [y_volume y_ids] in *.
      all: pose proof (proj1 T) as I.
      - unfold y_meter_id. destruct (pusher_total id (y_has id s) k _ I) as ([p|] & ->); cbn [bind]; do 3 eexists; (split; [reflexivity|]);
          (split; [apply Nat.le_add_r|]); split; auto; intros _; rewrite Nat.add_0_r; auto.
      - unfold y_meter_name. destruct (create_total k K _ en m now T ltac:(lia) HS HK) as (id & r' & k' & -> & L & T'). cbn [bind]. unfold y_meter_id.
        change (y_reg (y_set_reg r' s)) with r'. destruct (pusher_total id (y_has id (y_set_reg r' s)) k' r' (proj1 T')) as ([p|] & ->); cbn [bind];
          do 2 eexists; exists k'; (split; [reflexivity|]); (split; [lia|]); split; auto.
      - unfold y_comp_id. destruct (comp_total (id RoTime) (id RoRead) (id RoWrite) (y_has (id RoTime) s) (y_has (id RoRead) s) (y_has (id RoWrite) s) sum k _ I) as ([p|] & ->);
          cbn [bind]; do 2 eexists; exists k; (split; [reflexivity|]); (split; [lia|]); split; auto; intros _; rewrite Nat.add_0_r; auto.
      - unfold y_comp_name, rg_composite_name. destruct (roles_total en m now HS order k K _ T HN HK) as (ids & r' & k' & -> & L & T'). cbn [bind].
        destruct (comp_total (ids RoTime) (ids RoRead) (ids RoWrite) (w_handler (y_wrt s)) (w_handler (y_wrt s)) (w_handler (y_wrt s)) sum k' r' (proj1 T')) as ([p|] & ->);
          cbn [bind]; do 2 eexists; exists k'; (split; [reflexivity|]); (split; [lia|]); split; auto.
      - destruct (rg_do_total g k K _ T ltac:(lia) HS HK) as (out & r' & k' & -> & L & T'). cbn [bind]. do 2 eexists. exists k'. split; [reflexivity|]. split; [lia|]. split; auto.
      - unfold w_pushout. destruct (pop_all_total force clk k K _ T ltac:(lia) HS ltac:(lia)) as (l & r' & E & T'). unfold y_reg in E. rewrite E. cbn [bind]. rewrite HH. cbn [bind].
        do 2 eexists. exists k. split; [reflexivity|]. split; [lia|]. split; auto. intros _. rewrite Nat.add_0_r. exact T'.
      - unfold w_pushout. destruct (pop_all_total true clk k K _ T ltac:(lia) HS ltac:(lia)) as (l & r' & E & T'). unfold y_reg in E. rewrite E. cbn [bind]. rewrite HH. cbn [bind].
        do 2 eexists. exists k. split; [reflexivity|]. split; [lia|]. split; auto. intros X. discriminate X. }
    destruct X as (e & s' & k' & E & L & HH' & T'). exists e, s', k'. split; auto. split; auto.
    destruct (do_inv ne op s e s' W O E) as [W' O']. split; [auto|]. split; [auto|]. split; auto.
  Qed.
  Lemma y_run_total ops : forall k K s, TY k K s -> (k + list_sum (map y_ids ops) <= N)%nat -> all_safe (rgo_agg o) ne s ops ->
    Z.of_nat (K + list_sum (map y_volume ops)) < two64 -> exists log s', y_run ne s ops = Ok (log, s').
  Proof.
    induction ops as [|op ops IH]; intros k K s T HN HS HK; [simpl; eauto|]. destruct HS as [H1 H2]. cbn [map list_sum fold_right] in *.
    fold (list_sum (map y_volume ops)) in HK. fold (list_sum (map y_ids ops)) in HN. cbn [y_run].
    destruct (y_do_total op k K s T ltac:(lia) H1 ltac:(lia)) as (e & s1 & k1 & E & L & T1). rewrite E. cbn [bind].
    destruct (IH k1 _ s1 T1) as (log & s2 & ->); [lia|eapply H2; eauto|lia|]. cbn [bind]. eauto.
  Qed.
End Total.
