(** aggregators_count() after any history. *)
From Coq Require Import ZArith List Bool Permutation Lia Arith.
From Verif Require Import Base ListFacts SortFacts ModelTypes ModelAvg ModelReducer SpecReducer
  ModelSeparator SpecSeparator ModelAggregator SpecAggregator ModelRegistry SpecRegistry RegProofs RegFinal SpecObserve.
Import ListNotations.
Local Open Scope Z_scope.

Lemma filter_drop {A} (eqb : A -> A -> bool) (SP : forall a b, reflect (a = b) (eqb a b)) x l :
  NoDup l -> In x l -> S (length (filter (fun y => negb (eqb y x)) l)) = length l.
Proof.
  induction 1 as [|y l NI ND IH]; [intros []|]. intros [->|H]; simpl.
  - destruct (SP x x) as [_|]; [|congruence]. simpl. f_equal. clear IH ND.
    induction l as [|z l IH]; simpl; auto. destruct (SP z x) as [->|]; simpl.
    + exfalso. apply NI. now left.
    + f_equal. apply IH. intros X. apply NI. now right.
  - destruct (SP y x) as [->|]; [contradiction|]. simpl. f_equal. auto.
Qed.

Definition nat_count (o : rgopts) (k : nat) : nat :=
  if (k =? 0)%nat then 0%nat else (k + 1 + Z.to_nat ((rgo_init o + rgo_step o - 1) / rgo_step o))%nat.

Record CInv (o : rgopts) (l : list name) (k : nat) (r : registry) : Prop := {
  ci_inv : RInv o k r;
  ci_nd : NoDup l;
  ci_names : forall n, In n l <-> m_find name_eqb n (d_dict (rg_dict r)) <> None;
  ci_fnd : NoDup (d_free (rg_dict r));
  ci_sum : (length l + length (d_free (rg_dict r)) = k)%nat;
  ci_len : length (rg_arr r) = nat_count o k }.

Lemma peak_snoc ops op : peak (ops ++ [op]) = Nat.max (peak ops) (length (names_after (ops ++ [op]))).
Proof.
  unfold peak. rewrite app_length. simpl length. replace (S (length ops + 1)) with (S (length ops) + 1)%nat by lia.
  rewrite seq_app, map_app.
  assert (M : forall a b, fold_right Nat.max 0%nat (a ++ b) = Nat.max (fold_right Nat.max 0%nat a) (fold_right Nat.max 0%nat b)).
  { induction a; intros b; simpl; auto. rewrite IHa. lia. }
  rewrite M. f_equal.
  - f_equal. apply map_ext_in. intros i Hi. apply in_seq in Hi. rewrite firstn_app. replace (i - length ops)%nat with 0%nat by lia.
    simpl. now rewrite app_nil_r.
  - change (seq (0 + S (length ops)) 1) with [S (length ops)]. cbn [map fold_right]. rewrite firstn_all2 by (rewrite app_length; simpl; lia). lia.
Qed.
Lemma names_snoc ops op : names_after (ops ++ [op]) = names_step (names_after ops) op.
Proof. unfold names_after. now rewrite fold_left_app. Qed.

Section Bounded.
  Variable ne : nat -> list Z -> list Z.
  Variable o : rgopts.
  Variable N : nat.
  Hypothesis F : fits o N.
  Let step := rgo_step o.

  Lemma nat_count_pos k : (1 <= k)%nat -> nat_count o k = S (posn (rgo_step o) (nth_id o k)).
  Proof. intros H. unfold nat_count. destruct (Nat.eqb_spec k 0); [lia|]. rewrite posn_nth by apply F. lia. Qed.

  Lemma same_count l k k1 r r1 : CInv o l k r -> RInv o k1 r1 -> rg_dict r1 = rg_dict r -> length (rg_arr r1) = length (rg_arr r) ->
    CInv o l (Nat.max k (length l)) r1.
  Proof.
    intros [I ND NM FND SM LN] I1 D L. assert (k1 = k).
    { apply (nth_id_inj o); [apply F|]. now rewrite <- (ri_counter _ _ _ I1), D, (ri_counter _ _ _ I). }
    subst k1. replace (Nat.max k (length l)) with k by lia. constructor; auto; rewrite ?D, ?L; auto.
  Qed.

  Lemma rg_call_arr id g r out r1 : rg_call ne id g r = Ok (out, r1) -> rg_dict r1 = rg_dict r /\ length (rg_arr r1) = length (rg_arr r).
  Proof.
    unfold rg_call. destruct (rg_get id r) as [[[pos [s a]]|]| |]; cbn [bind]; try discriminate; [|intros H; injection H as <- <-; auto].
    destruct (g_call ne g a) as [[o1 a1]| |]; cbn [bind]; try discriminate. intros H. injection H as <- <-. simpl. now rewrite set_nth_length.
  Qed.
  Lemma pusher_arr p x c1 c2 r l r1 : rg_call_pusher ne p x c1 c2 r = Ok (l, r1) -> rg_dict r1 = rg_dict r /\ length (rg_arr r1) = length (rg_arr r).
  Proof.
    unfold rg_call_pusher. destruct (find_obj _ _) as [[pos g]|]; [|intros H; injection H as <- <-; auto].
    destruct (g_call_pusher _ _ _) as [[l1 g1]| |]; cbn [bind]; try discriminate. intros H. injection H as <- <-. simpl. now rewrite set_nth_length.
  Qed.

  Lemma create_count l k r e n now id r1 : CInv o l k r -> (k <= N)%nat -> rg_create ne e n now r = Ok (id, r1) ->
    CInv o (put_name n l) (Nat.max k (length (put_name n l))) r1.
  Proof.
    intros C Hk E. pose proof (ci_inv _ _ _ _ C) as I.
    destruct (create_sim ne o N F k r e n now id r1 I Hk E) as [C1 C2].
    destruct n as [|a n'].
    { destruct (C1 eq_refl) as [_ ->]. simpl. eapply same_count; eauto. }
    set (n := a :: n') in *. assert (HN : n <> []) by discriminate.
    destruct (C2 HN) as (k1 & g1 & Hk1 & I1 & _ & EN & _ & _ & _ & SAME & IDX & FR).
    assert (PN : put_name n l = if existsb (name_eqb n) l then l else n :: l) by reflexivity. rewrite PN. clearbody n. clear PN.
    destruct (m_find name_eqb n (d_dict (rg_dict r))) as [i0|] eqn:EM.
    { rewrite (SAME ltac:(discriminate)) in *.
      assert (IN : In n l) by (apply (ci_names _ _ _ _ C); congruence).
      assert (EX : existsb (name_eqb n) l = true).
      { apply existsb_exists. exists n. split; auto. destruct (name_eqb_spec n n); congruence. }
      rewrite EX. eapply same_count; eauto. }
    assert (NI : ~ In n l) by (rewrite (ci_names _ _ _ _ C); congruence).
    assert (EX : existsb (name_eqb n) l = false).
    { apply not_true_is_false. intros X. apply existsb_exists in X as (m & Hm & Em). destruct (name_eqb_spec n m); [subst; contradiction|discriminate]. }
    rewrite EX. clear C1 C2 SAME EX.
    destruct n as [|a0 n0]; [congruence|]. set (n := a0 :: n0) in *.
    assert (E' : (let '(id, d) := d_create_id (ce_pick e) n (rg_dict r) in
        pos <- d_id2pos id d ;;
        let r1 := mk_registry (rg_opt r) (rg_arr r) d (rg_enabled r) (rg_initializer r) (rg_next r) in
        match nth_error (rg_arr r) pos with
        | Some (Some _) => Ok (id, r1)
        | _ =>
            g <- agg_new (rg_opt r) (ce_clock e) (ce_rnd e) now ;;
            g1 <- (if negb (rg_enabled r) then Ok (g_enable false g)
                   else if rg_initializer r then
                     match ce_init e with
                     | Some rd => '(_, g') <- g_add_red ne (ce_c1 e) (ce_c2 e) rd g ;; Ok g'
                     | None => Ok g
                     end
                   else Ok g) ;;
            Ok (id, mk_registry (rg_opt r) (set_nth pos (Some (rg_next r, g1)) (resize (S pos) (rg_arr r))) d
                                (rg_enabled r) (rg_initializer r) (S (rg_next r)))
        end) = Ok (id, r1)) by exact E.
    clear E. clearbody n. destruct (d_create_id (ce_pick e) n (rg_dict r)) as [id0 d] eqn:EC.
    destruct (create_id_fresh ne o N F k r (ce_pick e) n id0 d I Hk HN EM EC) as (k' & j & Hk' & Hj & -> & DS & DC & FI & _ & _ & _ & _ & KF).
    assert (EP : d_id2pos (nth_id o j) d = Ok (posn (rgo_step o) (nth_id o j))).
    { unfold d_id2pos. rewrite DS. pose proof (step_pos o N F). destruct (Z.eqb_spec (rgo_step o) 0); [lia|]. unfold posn. do 2 f_equal. f_equal.
      apply Z.mod_small. pose proof (id_range o N F j ltac:(lia)). unfold bad_id in *. lia. }
    rewrite EP in E'. cbn [bind] in E'. cbv zeta in E'.
    assert (HARR : id = nth_id o j /\ rg_dict r1 = d /\ length (rg_arr r1) = Nat.max (length (rg_arr r)) (S (posn (rgo_step o) (nth_id o j)))).
    { set (K := bind _ _) in E'.
      assert (HK : K = Ok (id, r1) -> id = nth_id o j /\ rg_dict r1 = d /\ length (rg_arr r1) = Nat.max (length (rg_arr r)) (S (posn (rgo_step o) (nth_id o j)))).
      { intros EK. unfold K in EK. destruct (agg_new _ _ _ _) as [g| |]; cbn [bind] in EK; try discriminate.
        set (gi := if negb _ then _ else _) in EK. clearbody gi. destruct gi as [g2| |]; cbn [bind] in EK; try discriminate. injection EK as <- <-.
        simpl. split; auto. split; auto. rewrite set_nth_length. unfold resize. rewrite app_length, repeat_length. lia. }
      clearbody K. destruct (nth_error (rg_arr r) (posn (rgo_step o) (nth_id o j))) as [[[s0 gg]|]|] eqn:EA; auto.
      exfalso. destruct (ri_arr _ _ _ I _ _ _ EA) as (_ & m & i & Em & Ep). destruct (ri_live _ _ _ I _ _ Em) as (j2 & Hj2 & ->).
      apply (posn_inj o N F) in Ep. subst j2. apply (ri_inv _ _ _ I) in Em. congruence. }
    destruct HARR as (-> & DR & LA). clear E'.
    assert (k1 = k') by (apply (nth_id_inj o); [apply F|]; rewrite <- DC, <- DR; symmetry; apply I1). subst k1.
    assert (FREE : (k' = S k /\ d_free (rg_dict r) = [] /\ d_free d = []) \/
                   (k' = k /\ NoDup (d_free d) /\ S (length (d_free d)) = length (d_free (rg_dict r)))).
    { unfold d_create_id in EC. rewrite EM in EC. destruct (d_free (rg_dict r)) as [|f0 fr] eqn:EF.
      - left. cbv zeta in EC. injection EC as E1 <-. simpl in *. split; auto.
        pose proof (id_range o N F k ltac:(lia)) as R. pose proof (step_pos o N F).
        rewrite (ri_counter _ _ _ I), (ri_step _ _ _ I) in DC. unfold u64 in DC. rewrite Z.mod_small in DC by (unfold bad_id in *; lia).
        assert (k' <> k) by (intros ->; lia). lia.
      - right. set (id0 := nth (ce_pick e mod length (f0 :: fr)) (f0 :: fr) f0) in *. cbv zeta in EC. injection EC as E1 <-.
        simpl d_counter in DC. simpl d_free. split; [apply (nth_id_inj o); [apply F|]; rewrite <- DC; apply I|].
        pose proof (ci_fnd _ _ _ _ C) as FND. rewrite EF in FND. split; [exact (NoDup_filter (fun x => negb (x =? id0)) FND)|].
        change (S (length (filter (fun x => negb (x =? id0)) (f0 :: fr))) = length (f0 :: fr)).
        apply (filter_drop Z.eqb Z.eqb_spec); auto. unfold id0. apply nth_In. apply Nat.mod_upper_bound. discriminate. }
    pose proof (ci_sum _ _ _ _ C) as SM. pose proof (ci_len _ _ _ _ C) as LN.
    assert (KM : Nat.max k (length (n :: l)) = k').
    { clear -FREE SM. unfold name in *. cbn [length]. destruct FREE as [(-> & FE & _)|(-> & _ & FE)]; [rewrite FE in SM; simpl in SM; lia|lia]. }
    match goal with |- CInv _ _ ?m _ => replace m with k' by (symmetry; exact KM) end. constructor; auto.
    - constructor; auto. apply C.
    - intros m. rewrite DR. destruct (name_eqb_spec m n) as [->|NE].
      + split; [intros _|left; auto]. rewrite <- DR, EN. discriminate.
      + simpl. rewrite (ci_names _ _ _ _ C m). split.
        * intros [->|H]; [congruence|]. destruct (m_find name_eqb m (d_dict (rg_dict r))) as [i|] eqn:Em; [|congruence].
          apply (ri_inv _ _ _ I) in Em. rewrite <- DR. assert (X : m_find name_eqb m (d_dict (rg_dict r1)) = Some i).
          { apply (ri_inv _ _ _ I1). rewrite IDX. destruct (Z.eqb_spec i (nth_id o j)) as [->|]; auto. congruence. }
          rewrite X. discriminate.
        * intros H. right. rewrite <- DR in H. destruct (m_find name_eqb m (d_dict (rg_dict r1))) as [i|] eqn:Em; [|congruence].
          apply (ri_inv _ _ _ I1) in Em. rewrite IDX in Em. destruct (Z.eqb_spec i (nth_id o j)); [congruence|]. apply (ri_inv _ _ _ I) in Em. congruence.
    - rewrite DR. destruct FREE as [(_ & _ & ->)|(_ & H & _)]; [constructor|auto].
    - rewrite DR. clear -FREE SM. unfold name in *. cbn [length]. destruct FREE as [(-> & FE & FE')|(-> & _ & FE)]; [rewrite FE' in *; rewrite FE in SM; simpl in *; lia|lia].
    - rewrite LA, LN. rewrite (nat_count_pos k') by lia. pose proof (proj1 F) as F0. pose proof (proj1 (proj2 F)) as F1.
      pose proof (posn_mono o j k' F0 F1 ltac:(lia)) as PM.
      destruct (Nat.eq_dec k 0) as [->|NZ].
      + destruct FREE as [(-> & _)|(-> & _)]; [|lia]. assert (j = 1%nat) by lia. subst j. unfold nat_count. simpl. reflexivity.
      + rewrite (nat_count_pos k) by lia. pose proof (posn_mono o k k' F0 F1 ltac:(lia)). 
        destruct FREE as [(EK & _)|(EK & _)]; [destruct (KF EK) as [-> _]; subst k'; lia|subst k'; lia].
  Qed.

  Lemma pop_loop_arr f clk is : forall r l r1, rg_pop_loop ne f clk is r = Ok (l, r1) -> rg_dict r1 = rg_dict r /\ length (rg_arr r1) = length (rg_arr r).
  Proof.
    induction is as [|i is IH]; intros r l r1 E; cbn [rg_pop_loop] in E; [injection E as <- <-; auto|].
    destruct (d_pos2id i (rg_dict r)) as [id| |]; cbn [bind] in E; try discriminate.
    destruct (rg_get id r) as [[[pos [s g]]|]| |]; cbn [bind] in E; try discriminate.
    - destruct (g_call ne _ g) as [[o1 g1]| |]; cbn [bind] in E; try discriminate.
      destruct (g_call ne _ g1) as [[o2 g2]| |]; cbn [bind] in E; try discriminate.
      destruct (rg_pop_loop ne f clk is _) as [[l2 r2]| |] eqn:EL; cbn [bind] in E; try discriminate. injection E as <- <-.
      apply IH in EL. simpl in EL. now rewrite set_nth_length in EL.
    - destruct (rg_pop_loop ne f clk is r) as [[l2 r2]| |] eqn:EL; cbn [bind] in E; try discriminate. injection E as <- <-. eauto.
  Qed.

  Lemma del_count l k r n b r1 : CInv o l k r -> (k <= N)%nat -> rg_del n r = Ok (b, r1) ->
    let l1 := filter (fun m => negb (name_eqb m n)) l in CInv o l1 (Nat.max k (length l1)) r1.
  Proof.
    intros C Hk E l1. pose proof (ci_inv _ _ _ _ C) as I. pose proof (ci_sum _ _ _ _ C) as SM.
    destruct (del_sim o N F k r n b r1 I Hk E) as (_ & I1 & _ & _ & _ & ND & _).
    assert (LE : (length l1 <= length l)%nat) by (unfold l1; clear; induction l; simpl; auto; destruct (negb _); simpl; lia).
    replace (Nat.max k (length l1)) with k by lia.
    assert (IN : forall m, In m l1 <-> In m l /\ m <> n).
    { intros m. unfold l1. rewrite filter_In, negb_true_iff. destruct (name_eqb_spec m n); split; intros [A B]; split; auto; congruence. }
    unfold rg_del, d_get_id in E. destruct (m_find name_eqb n (d_dict (rg_dict r))) as [id|] eqn:EM.
    - destruct (ri_live _ _ _ I _ _ EM) as (j & Hj & ->). pose proof (id_range o N F j ltac:(lia)) as R. pose proof (step_pos o N F).
      destruct (Z.eqb_spec (nth_id o j) bad_id); [lia|]. rewrite (id2pos_ok o N F k r j I) in E by lia. cbn [bind] in E.
      destruct (_ <? _)%nat; [|discriminate]. unfold d_free_id in E. pose proof (proj1 (ri_inv _ _ _ I _ _) EM) as EI. rewrite EI in E.
      injection E as <- <-.
      assert (NF : ~ In (nth_id o j) (d_free (rg_dict r))) by (intros X; destruct (ri_free _ _ _ I _ X); congruence).
      assert (EX : existsb (Z.eqb (nth_id o j)) (d_free (rg_dict r)) = false).
      { apply not_true_is_false. intros X. apply existsb_exists in X as (z & Hz & Ez). apply Z.eqb_eq in Ez. subst z. contradiction. }
      constructor; auto.
      + unfold l1. apply NoDup_filter. apply C.
      + intros m. rewrite IN, (ci_names _ _ _ _ C m). simpl. rewrite m_find_erase by apply name_eqb_spec.
        destruct (name_eqb_spec n m) as [->|NE]; split; try tauto; try (intros [_ X]; congruence). intros X. split; auto.
      + simpl. rewrite EX. apply (Permutation_NoDup (Permutation_cons_append _ _)). constructor; auto. apply C.
      + simpl. rewrite EX, app_length. simpl.
        assert (S (length l1) = length l).
        { apply (filter_drop name_eqb name_eqb_spec); [apply C|]. apply (ci_names _ _ _ _ C). congruence. }
        lia.
      + simpl. rewrite set_nth_length. apply C.
    - rewrite Z.eqb_refl in E. injection E as <- <-.
      assert (EQ : l1 = l).
      { unfold l1. assert (NI : ~ In n l) by (rewrite (ci_names _ _ _ _ C); congruence). clear -NI. induction l as [|m l IH]; simpl; auto.
        destruct (name_eqb_spec m n) as [->|]; [exfalso; apply NI; now left|]. simpl. f_equal. apply IH. intros X. apply NI. now right. }
      rewrite EQ. exact C.
  Qed.

  Lemma do_count l k r op out r1 : CInv o l k r -> (k <= N)%nat -> rg_do ne op r = Ok (out, r1) ->
    CInv o (names_step l op) (Nat.max k (length (names_step l op))) r1.
  Proof.
    intros C Hk E. pose proof (ci_inv _ _ _ _ C) as I. destruct (do_inv ne o N F k r op out r1 I Hk E) as (k1 & _ & I1 & _).
    destruct op as [e m now|id g|e m d c1 c2|f clk|v|v|m|id|id h|e m h now|p x c1 c2]; cbn [rg_do] in E; cbn [names_step].
    - destruct (rg_create ne e m now r) as [[id r2]| |] eqn:EC; cbn [bind] in E; try discriminate. injection E as <- <-.
      eapply create_count; eauto.
    - destruct (rg_call ne id g r) as [[o1 r2]| |] eqn:EC; cbn [bind] in E; try discriminate. injection E as <- <-.
      apply rg_call_arr in EC as [A B]. eapply same_count; eauto.
    - unfold rg_add_name in E. destruct (rg_create ne e m _ r) as [[id r2]| |] eqn:EC; cbn [bind] in E; try discriminate.
      destruct (rg_call ne id _ r2) as [[o1 r3]| |] eqn:EL; cbn [bind] in E; try discriminate. injection E as <- <-.
      apply (create_count l k r) in EC; auto. apply rg_call_arr in EL as [A B].
      pose proof (same_count _ _ k1 _ r3 EC I1 A B) as X. now rewrite <- Nat.max_assoc, Nat.max_id in X.
    - destruct (rg_pop_all ne f clk r) as [[l2 r2]| |] eqn:EC; cbn [bind] in E; try discriminate. injection E as <- <-.
      apply pop_loop_arr in EC as [A B]. eapply same_count; eauto.
    - injection E as <- <-. eapply same_count; eauto. simpl. now rewrite map_length.
    - injection E as <- <-. eapply same_count; eauto.
    - destruct (rg_del m r) as [[b r2]| |] eqn:EC; cbn [bind] in E; try discriminate. injection E as <- <-. eapply del_count; eauto.
    - injection E as <- <-. eapply same_count; eauto.
    - destruct (rg_pusher id h r); cbn [bind] in E; try discriminate. injection E as <- <-. eapply same_count; eauto.
    - unfold rg_pusher_name in E. destruct (rg_create ne e m now r) as [[id r2]| |] eqn:EC; cbn [bind] in E; try discriminate.
      destruct (rg_pusher id h r2); cbn [bind] in E; try discriminate. injection E as <- <-. eapply create_count; eauto.
    - destruct (rg_call_pusher ne p x c1 c2 r) as [[l2 r2]| |] eqn:EC; cbn [bind] in E; try discriminate. injection E as <- <-.
      apply pusher_arr in EC as [A B]. eapply same_count; eauto.
  Qed.
  Lemma peak_le ops : (peak ops <= length ops)%nat.
  Proof.
    assert (G : forall l, (length (names_after l) <= length l)%nat).
    { intros l. induction l as [|x l IHl] using rev_ind; [simpl; lia|]. rewrite names_snoc, app_length. cbn [length].
      set (z := names_after l) in *. clearbody z.
      assert (P : forall n, (length (put_name n z) <= S (length z))%nat).
      { intros n. unfold put_name. destruct n; [lia|]. destruct (existsb _ z); cbn [length]; unfold name in *; lia. }
      destruct x as [e m now|id g|e m d c1 c2|f clk|v|v|m|id|id h|e m h now|p x c1 c2]; cbn [names_step]; try lia; try (specialize (P m); lia).
      assert (FL : (length (filter (fun m0 => negb (name_eqb m0 m)) z) <= length z)%nat).
      { clear. induction z; simpl; auto. destruct (negb _); simpl; lia. }
      lia. }
    induction ops as [|op ops IH] using rev_ind; [reflexivity|]. rewrite peak_snoc, app_length. pose proof (G (ops ++ [op])) as H.
    rewrite app_length in H. cbn [length] in *. lia.
  Qed.
  Lemma run_count ops : forall pre r outs r1, (length (pre ++ ops) <= N)%nat -> CInv o (names_after pre) (peak pre) r ->
    rg_run ne r ops = Ok (outs, r1) -> CInv o (names_after (pre ++ ops)) (peak (pre ++ ops)) r1.
  Proof.
    induction ops as [|op ops IH]; intros pre r outs r1 L C E; simpl in E.
    - injection E as <- <-. now rewrite app_nil_r.
    - destruct (rg_do ne op r) as [[o1 r2]| |] eqn:E1; cbn [bind] in E; try discriminate.
      destruct (rg_run ne r2 ops) as [[os r3]| |] eqn:E2; cbn [bind] in E; try discriminate. injection E as <- <-.
      replace (pre ++ op :: ops) with ((pre ++ [op]) ++ ops) in * by (now rewrite <- app_assoc).
      apply (IH _ r2 os); auto. rewrite peak_snoc, names_snoc. eapply do_count; eauto.
      pose proof (peak_le pre). rewrite !app_length in L. lia.
  Qed.
End Bounded.

Lemma count_exact ne o ops outs r : fits o (length ops) -> rg_run ne (rg_new o) ops = Ok (outs, r) ->
  rg_count r = nat_count o (peak ops) /\
  (forall n, In n (names_after ops) <-> exists id s g, registered r n id s g) /\ NoDup (names_after ops).
Proof.
  intros F E. assert (C0 : CInv o (names_after []) (peak []) (rg_new o)).
  { constructor; simpl; auto; try constructor; try tauto; try (apply RInv_new). }
  pose proof (run_count ne o (length ops) F ops [] (rg_new o) outs r (le_n _) C0 E) as C. simpl in C.
  split; [apply C|]. split; [|apply C]. intros n. rewrite (ci_names _ _ _ _ C n). pose proof (ci_inv _ _ _ _ C) as I.
  pose proof (peak_le o ops) as PL.
  unfold registered, rg_get_name, d_get_name. split.
  - intros H. destruct (m_find name_eqb n (d_dict (rg_dict r))) as [id|] eqn:EM; [|congruence].
    destruct (rg_get_live o (length ops) F (peak ops) r n id I PL EM) as (s & g & _ & EG). exists id, s, g.
    split; [intros ->; pose proof (ri_noname _ _ _ I); congruence|].
    apply (ri_inv _ _ _ I) in EM. rewrite EM. split; auto. eauto.
  - intros (id & s & g & HN & EN & _). destruct (m_find Z.eqb id (d_index (rg_dict r))) as [m|] eqn:EI; [|congruence]. subst m.
    apply (ri_inv _ _ _ I) in EI. congruence.
Qed.
