(** How far the running average can be from the mean (Flocq). *)
From Coq Require Import ZArith Reals Lia Lra Psatz List Floats.SpecFloat.
From Flocq Require Import Core Relative BinarySingleNaN.
From Verif Require Import Base ModelTypes ModelAvg AvgProofs SpecReducer ReducerProofs PubProofs.
Import ListNotations.

Local Instance p53' : Prec_gt_0 53 := eq_refl.

Definition ulpR : R := bpow radix2 (-53).
Definition tinyR : R := bpow radix2 (-1000).

Lemma ulpR_pos : (0 < ulpR)%R. Proof. apply bpow_gt_0. Qed.
Lemma tinyR_pos : (0 < tinyR)%R. Proof. apply bpow_gt_0. Qed.

Lemma rnd_err z : (Rabs (rnd z - z) <= ulpR * Rabs z + tinyR)%R.
Proof.
  destruct (relative_error_N_FLT'_ex radix2 (-1074) 53 eq_refl (fun z => negb (Z.even z)) z) as (e & h & He & Hh & _ & E).
  change (Znearest (fun z => negb (Z.even z))) with ZnearestE in E. rewrite E.
  replace (z * (1 + e) + h - z)%R with (e * z + h)%R by ring.
  eapply Rle_trans; [apply Rabs_triang|]. rewrite Rabs_mult.
  assert (U : (u_ro radix2 53 / (1 + u_ro radix2 53) <= ulpR)%R).
  { assert (P : (0 <= u_ro radix2 53)%R) by apply u_ro_pos.
    apply Rle_trans with (u_ro radix2 53).
    - unfold Rdiv. rewrite <- (Rmult_1_r (u_ro radix2 53)) at 3. apply Rmult_le_compat_l; auto.
      rewrite <- Rinv_1. apply Rinv_le; lra.
    - unfold u_ro, ulpR. replace (-53)%Z with (-(53) + 1 + -1)%Z by lia. rewrite (bpow_plus _ (-(53)+1)). simpl (bpow radix2 (-1)). lra. }
  assert (T : (/ 2 * bpow radix2 (-1074) <= tinyR)%R).
  { unfold tinyR. apply Rle_trans with (bpow radix2 (-1074)); [pose proof (bpow_ge_0 radix2 (-1074)); lra|]. apply bpow_le. lia. }
  pose proof (Rabs_pos z). apply Rplus_le_compat; [apply Rmult_le_compat_r; lra|lra].
Qed.

Lemma ulpR_val : ulpR = (/ 9007199254740992)%R.
Proof. reflexivity. Qed.
Lemma tinyR_small : (tinyR <= / 9007199254740992 * / 9007199254740992 * / 9007199254740992)%R.
Proof.
  unfold tinyR. rewrite <- ulpR_val. unfold ulpR. rewrite <- !bpow_plus. apply bpow_le. lia.
Qed.

(** One update of the average, against the exact one. *)
Lemma step_err a x v k B M :
  x = rnd v -> (1 <= M)%R -> (Rabs v <= M)%R -> (B <= M + 2 * ulpR * M)%R ->
  (Rabs a <= B)%R -> (Rabs x <= B)%R -> (2 <= k <= 9007199254740992)%R ->
  (Rabs (rnd (a + rnd (rnd (x - a) / k))) <= B)%R ->
  (Rabs (k * (rnd (a + rnd (rnd (x - a) / k)) - a) - (v - a)) <= ulpR * M * (k + 10))%R.
Proof.
  intros Ex HM Hv HB Ha Hx Hk Hr.
  set (s := (x - a)%R) in *. set (d := rnd s) in *. set (q := rnd (d / k)) in *. set (a' := rnd (a + q)) in *.
  pose proof tinyR_pos as TP. pose proof tinyR_small as TS.
  assert (E1 : (Rabs (x - v) <= ulpR * Rabs v + tinyR)%R) by (subst x; apply rnd_err).
  assert (E2 : (Rabs (d - s) <= ulpR * Rabs s + tinyR)%R) by apply rnd_err.
  assert (E3 : (Rabs (q - d / k) <= ulpR * Rabs (d / k) + tinyR)%R) by apply rnd_err.
  assert (E4 : (Rabs (a' - (a + q)) <= ulpR * Rabs (a + q) + tinyR)%R) by apply rnd_err.
  assert (S : (Rabs s <= 2 * B)%R).
  { unfold s. eapply Rle_trans; [apply Rabs_triang|]. rewrite Rabs_Ropp. lra. }
  assert (D : (Rabs d <= Rabs s + Rabs (d - s))%R).
  { replace d with (s + (d - s))%R at 1 by ring. apply Rabs_triang. }
  assert (W : (Rabs (a + q) <= Rabs a' + Rabs (a' - (a + q)))%R).
  { replace (a + q)%R with (a' + - (a' - (a + q)))%R at 1 by ring. eapply Rle_trans; [apply Rabs_triang|]. rewrite Rabs_Ropp. lra. }
  assert (K3 : (k * Rabs (q - d / k) <= ulpR * Rabs d + k * tinyR)%R).
  { unfold Rdiv in E3 at 2. rewrite Rabs_mult in E3. rewrite (Rabs_pos_eq (/ k)) in E3 by (left; apply Rinv_0_lt_compat; lra).
    apply Rle_trans with (k * (ulpR * (Rabs d * / k) + tinyR))%R; [apply Rmult_le_compat_l; lra|].
    right. field. lra. }
  rewrite ulpR_val in *.
  set (U := (/ 9007199254740992)%R) in *.
  assert (W2 : (Rabs (a + q) <= M + 4 * U * M)%R).
  { unfold U in *. lra. }
  assert (KU : (k * U <= 1)%R) by (unfold U; lra).
  assert (K4 : (k * Rabs (a' - (a + q)) <= U * M * k + 4 * U * M + k * tinyR)%R).
  { apply Rle_trans with (k * (U * (M + 4 * U * M) + tinyR))%R; [apply Rmult_le_compat_l; [lra|unfold U in *; lra]|].
    assert (k * U * (4 * U * M) <= 1 * (4 * U * M))%R; [|lra].
    apply Rmult_le_compat_r; [unfold U; lra|auto]. }
  assert (KT : (k * tinyR <= U * U)%R).
  { apply Rle_trans with (k * (U * U * U))%R; [apply Rmult_le_compat_l; lra|].
    replace (k * (U * U * U))%R with (k * U * (U * U))%R by ring. rewrite <- (Rmult_1_l (U * U)) at 2.
    apply Rmult_le_compat_r; [unfold U; lra|auto]. }
  replace (k * (a' - a) - (v - a))%R with (k * (a' - (a + q)) + (k * (q - d / k) + ((d - s) + (x - v))))%R.
  2:{ unfold s. field. lra. }
  eapply Rle_trans; [apply Rabs_triang|]. eapply Rle_trans; [apply Rplus_le_compat_l, Rabs_triang|].
  eapply Rle_trans; [apply Rplus_le_compat_l, Rplus_le_compat_l, Rabs_triang|].
  rewrite !(Rabs_mult k), (Rabs_pos_eq k) by lra.
  unfold U in *. lra.
Qed.

Definition sumZ (vs : list Z) : Z := fold_right Z.add 0%Z vs.
Lemma sumZ_snoc vs v : sumZ (vs ++ [v]) = (sumZ vs + v)%Z.
Proof. unfold sumZ. rewrite fold_right_app. simpl. induction vs; simpl; lia. Qed.

Lemma IZR_len (n : nat) : IZR (Z.of_nat n) = INR n.
Proof. symmetry. apply INR_IZR_INZ. Qed.

Lemma avg_err vs M : vs <> [] -> (Z.of_nat (length vs) <= 2 ^ 53)%Z -> (1 <= M <= 2 ^ 63)%Z ->
  Forall (fun v => i64 v /\ (Z.abs v <= M)%Z) vs ->
  exists r, repr (fst (avg_of vs)) r /\ (Rabs r <= rnd (IZR M))%R /\
    (2 * Rabs (INR (length vs) * r - IZR (sumZ vs)) <= ulpR * IZR M * (INR (length vs) * (INR (length vs) + 21)))%R.
Proof.
  intros Hne Hlen HM HF.
  assert (M1 : (1 <= IZR M)%R) by (apply IZR_le; lia).
  assert (BM : (rnd (IZR M) <= IZR M + 2 * ulpR * IZR M)%R).
  { pose proof (rnd_err (IZR M)) as E. apply Rabs_le_inv in E. rewrite (Rabs_pos_eq (IZR M)) in E by lra.
    pose proof tinyR_small. rewrite ulpR_val in *. lra. }
  assert (B63 : (rnd (IZR M) <= bpow radix2 63)%R).
  { apply round_le_generic; auto with typeclass_instances; [apply fmt_b63|]. rewrite bpow_IZR by lia. apply IZR_le. lia. }
  revert Hne Hlen HF. induction vs as [|v vs IH] using rev_ind; intros Hne Hlen HF; [congruence|].
  apply Forall_app in HF as [HF Hv]. apply Forall_inv in Hv. destruct Hv as [Vi Va].
  rewrite app_length in *. simpl length in *.
  assert (Va63 : (Z.abs v <= 2 ^ 63)%Z) by lia.
  assert (VM : (Rabs (IZR v) <= IZR M)%R) by (rewrite <- abs_IZR; apply IZR_le; lia).
  assert (XB : (Rabs (rnd (IZR v)) <= rnd (IZR M))%R).
  { apply Rabs_le_inv in VM. apply Rabs_le. rewrite <- round_NE_opp.
    split; apply round_le; auto with typeclass_instances; lra. }
  rewrite avg_of_snoc. unfold avg_acc. cbn [fst].
  rewrite (avg_of_count vs) by (unfold two64; lia). rewrite u64_id by (unfold two64; lia).
  rewrite sumZ_snoc.
  destruct vs as [|w vs'] eqn:EV.
  - exists (rnd (IZR v)). split; [apply avg_first; auto|]. split; [auto|]. simpl.
    pose proof (rnd_err (IZR v)) as E. pose proof tinyR_small. pose proof ulpR_pos.
    replace (1 * rnd (IZR v) - IZR v)%R with (rnd (IZR v) - IZR v)%R by ring.
    rewrite ulpR_val in *. lra.
  - rewrite <- EV in *. assert (VN : vs <> []) by (rewrite EV; congruence).
    destruct (IH VN ltac:(lia) HF) as (r & Rr & Br & Er).
    assert (K2 : (2 <= Z.of_nat (length vs) + 1 <= 2 ^ 53)%Z) by (rewrite EV in *; simpl length in *; lia).
    set (k := (Z.of_nat (length vs) + 1)%Z) in *.
    assert (EK : IZR k = (INR (length vs) + 1)%R) by (unfold k; rewrite plus_IZR, IZR_len; reflexivity).
    assert (NX : repr (avg_step (fst (avg_of vs)) k v) (rnd (r + rnd (rnd (rnd (IZR v) - r) / IZR k)))).
    { rewrite <- (rnd_exact k) by lia. apply avg_next_repr; auto; [lra|lia]. }
    assert (BX : (Rabs (rnd (r + rnd (rnd (rnd (IZR v) - r) / IZR k))) <= rnd (IZR M))%R).
    { apply Rabs_le_inv in Br. apply Rabs_le_inv in XB. apply Rabs_le.
      assert (Fr := repr_fmt _ _ Rr). assert (2 <= IZR k)%R by (apply IZR_le; lia).
      split; [apply hull_lo|apply hull_hi]; auto using fmt_rnd, generic_format_opp; try lra. }
    eexists. split; [exact NX|]. split; [exact BX|].
    assert (SE := step_err r (rnd (IZR v)) (IZR v) (IZR k) (rnd (IZR M)) (IZR M) eq_refl M1 VM BM Br XB
                    (conj (IZR_le 2 k (proj1 K2)) (IZR_le k _ (proj2 K2))) BX).
    set (r' := rnd (r + rnd (rnd (rnd (IZR v) - r) / IZR k))) in *.
    rewrite plus_INR. simpl (INR 1). rewrite plus_IZR.
    set (n := INR (length vs)) in *. rewrite EK in SE.
    replace ((n + 1) * r' - (IZR (sumZ vs) + IZR v))%R with ((n * r - IZR (sumZ vs)) + ((n + 1) * (r' - r) - (IZR v - r)))%R by ring.
    pose proof (Rabs_triang (n * r - IZR (sumZ vs)) ((n + 1) * (r' - r) - (IZR v - r))) as T.
    nra.
Qed.

Lemma cast_trunc a r z : repr a r -> f64_to_i64 a = Ok z -> z = Ztrunc r.
Proof.
  intros (b & <- & Fb & <-) H. destruct b as [s|s| |s m e Hb]; try discriminate.
  - simpl in *. rewrite Ztrunc_IZR. congruence.
  - simpl B2SF in H. unfold f64_to_i64 in H. rewrite (f64_trunc_correct s m e Hb) in H.
    unfold chk in H. destruct (in_i64 _); congruence.
Qed.
Lemma trunc_err r : (Rabs (IZR (Ztrunc r) - r) <= 1)%R.
Proof.
  apply Rabs_le. destruct (Rle_or_lt 0 r) as [P|P].
  - rewrite Ztrunc_floor by auto. pose proof (Zfloor_lb r). pose proof (Zfloor_ub r). lra.
  - rewrite Ztrunc_ceil by lra. pose proof (Zceil_ub r). pose proof (Zceil_lb r). lra.
Qed.

Lemma cast_err vs M z : vs <> [] -> (Z.of_nat (length vs) <= 2 ^ 53)%Z -> (1 <= M <= 2 ^ 63)%Z ->
  Forall (fun v => i64 v /\ (Z.abs v <= M)%Z) vs -> f64_to_i64 (fst (avg_of vs)) = Ok z ->
  let n := Z.of_nat (length vs) in (2 ^ 54 * Z.abs (n * z - sumZ vs) <= n * (2 ^ 54 + M * (n + 21)))%Z.
Proof.
  intros Hne Hlen HM HF Hz n. destruct (avg_err vs M Hne Hlen HM HF) as (r & Rr & _ & Er).
  rewrite (cast_trunc _ _ _ Rr Hz). pose proof (trunc_err r) as T. rewrite <- IZR_len in Er. fold n in Er.
  apply le_IZR. rewrite !mult_IZR, abs_IZR, minus_IZR, plus_IZR, !mult_IZR, plus_IZR.
  change (2 ^ 54)%Z with 18014398509481984%Z. 
  assert (N0 : (0 <= IZR n)%R) by (apply IZR_le; lia).
  replace (IZR n * IZR (Ztrunc r) - IZR (sumZ vs))%R with (IZR n * (IZR (Ztrunc r) - r) + (IZR n * r - IZR (sumZ vs)))%R by ring.
  pose proof (Rabs_triang (IZR n * (IZR (Ztrunc r) - r)) (IZR n * r - IZR (sumZ vs))) as TR.
  rewrite Rabs_mult, (Rabs_pos_eq (IZR n)) in TR by auto.
  assert (IZR n * Rabs (IZR (Ztrunc r) - r) <= IZR n * 1)%R by (apply Rmult_le_compat_l; auto).
  rewrite ulpR_val in Er. nra.
Qed.

Section Pub.
  Variable ne : nat -> list Z -> list Z.
  Hypothesis NE : nth_element_ok ne.
  Lemma pub_avg_error o ops a M : Forall op_typed ops -> publishes ne o ops a ->
    values (window ops) <> [] -> (Z.of_nat (length (values (window ops))) <= 2 ^ 53)%Z ->
    (1 <= M)%Z -> Forall (fun v => (- M <= v <= M)%Z) (values (window ops)) ->
    let n := Z.of_nat (length (values (window ops))) in
    (2 ^ 54 * Z.abs (n * ad_avg a - fold_right Z.add 0 (values (window ops))) <= n * (2 ^ 54 + M * (n + 21)))%Z.
  Proof.
    intros HT P Hv Hl HM HF n. destruct (pub_inv ne NE o ops a HT P) as ((_ & _ & _ & _ & _ & _ & _ & Av & _) & _).
    assert (VI : Forall i64 (values (window ops))).
    { pose proof (typed_extremes _ (window_typed ops HT)) as X. rewrite Forall_forall in *. intros v I. apply X.
      unfold values, extremes in *. apply in_flat_map in I as (op & H1 & H2). apply in_flat_map.
      exists op. split; auto. unfold op_extremes. apply in_app_iff; auto. }
    assert (C := cast_err (values (window ops)) (Z.min M (2 ^ 63)) (ad_avg a) Hv Hl ltac:(lia)).
    cbv zeta in C. fold n in C. unfold sumZ in C.
    assert (D : (n * (2 ^ 54 + Z.min M (2 ^ 63) * (n + 21)) <= n * (2 ^ 54 + M * (n + 21)))%Z) by (unfold n; nia).
    eapply Z.le_trans; [apply C|exact D]; auto.
    rewrite Forall_forall in *. intros v I. specialize (VI v I). specialize (HF v I). split; auto. unfold i64, i64_min, i64_max in VI. lia.
  Qed.
End Pub.
