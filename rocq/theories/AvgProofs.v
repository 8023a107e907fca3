(** Rounding analysis of the running average (Flocq). *)
From Coq Require Import ZArith Reals Lia Lra Psatz List Floats.SpecFloat.
From Flocq Require Import Core Plus_error Relative BinarySingleNaN.
From Verif Require Import Base ModelAvg.
Import ListNotations.

Notation fx := (FLT_exp (-1074) 53).
Notation rnd := (round radix2 fx ZnearestE).
Notation fmt := (generic_format radix2 fx).

Local Instance p53 : Prec_gt_0 53 := eq_refl.
Local Instance p53e : Prec_lt_emax 53 1024 := eq_refl.

(** * Equivalence of SpecFloat operations with Flocq's *)
Lemma round_nearest_even_equiv s m l :
  round_nearest_even m l = choice_mode mode_NE s m l.
Proof.
  case l; [reflexivity|intro c]. case c; [ | reflexivity..].
  now simpl; unfold Round.cond_incr; case Z.even.
Qed.

Lemma binary_round_aux_equiv sx mx ex lx :
  SpecFloat.binary_round_aux 53 1024 sx mx ex lx
  = BinarySingleNaN.binary_round_aux 53 1024 mode_NE sx mx ex lx.
Proof.
  unfold SpecFloat.binary_round_aux, BinarySingleNaN.binary_round_aux.
  set (mrse' := shr_fexp _ _ _). case mrse'; intros mrs' e'; simpl.
  now rewrite (round_nearest_even_equiv sx).
Qed.

Lemma binary_round_equiv s m e :
  SpecFloat.binary_round 53 1024 s m e = BinarySingleNaN.binary_round 53 1024 mode_NE s m e.
Proof.
  unfold SpecFloat.binary_round, BinarySingleNaN.binary_round, shl_align_fexp.
  set (mez := shl_align _ _ _); case mez as [mz ez]. apply binary_round_aux_equiv.
Qed.

Lemma binary_normalize_equiv m e szero :
  SpecFloat.binary_normalize 53 1024 m e szero
  = B2SF (BinarySingleNaN.binary_normalize 53 1024 p53 p53e mode_NE m e szero).
Proof.
  case m as [ | p | p].
  - now simpl.
  - simpl; rewrite B2SF_SF2B; apply binary_round_equiv.
  - simpl; rewrite B2SF_SF2B; apply binary_round_equiv.
Qed.

Notation bf := (binary_float 53 1024).

Lemma add_equiv (x y : bf) : f64_add (B2SF x) (B2SF y) = B2SF (Bplus mode_NE x y).
Proof.
  unfold f64_add.
  case x as [sx|sx| |sx mx ex Bx]; case y as [sy|sy| |sy my ey By];
    [now (trivial || simpl; case Bool.eqb).. | ].
  apply binary_normalize_equiv.
Qed.

Lemma sub_equiv (x y : bf) : f64_sub (B2SF x) (B2SF y) = B2SF (Bminus mode_NE x y).
Proof.
  unfold f64_sub.
  case x as [sx|sx| |sx mx ex Bx]; case y as [sy|sy| |sy my ey By];
    [now (trivial || simpl; case Bool.eqb).. | ].
  simpl. unfold Zminus. rewrite <- cond_Zopp_negb. apply binary_normalize_equiv.
Qed.

Lemma div_equiv (x y : bf) : f64_div (B2SF x) (B2SF y) = B2SF (Bdiv mode_NE x y).
Proof.
  unfold f64_div.
  case x as [sx|sx| |sx mx ex Bx]; case y as [sy|sy| |sy my ey By];
    [now (trivial || simpl; case Bool.eqb).. | ].
  simpl. rewrite B2SF_SF2B.
  set (melz := SFdiv_core_binary _ _ _ _ _ _). case melz as [[mz ez] lz].
  apply binary_round_aux_equiv.
Qed.

(** [repr a r]: the float [a] is finite and has real value [r]. *)
Definition repr (a : f64) (r : R) : Prop :=
  exists b : bf, B2SF b = a /\ is_finite b = true /\ B2R b = r.

Lemma repr_fmt a r : repr a r -> fmt r.
Proof. intros (b & _ & _ & <-). apply generic_format_B2R. Qed.

Lemma fmt_bpow e : (-1074 <= e)%Z -> fmt (bpow radix2 e).
Proof. intros H. apply generic_format_bpow. unfold FLT_exp. lia. Qed.

Lemma rnd_small x e : (-1074 <= e < 1024)%Z -> (Rabs x <= bpow radix2 e)%R ->
  Rlt_bool (Rabs (rnd x)) (bpow radix2 1024) = true.
Proof.
  intros He Hx. apply Rlt_bool_true.
  apply Rle_lt_trans with (bpow radix2 e); [|apply bpow_lt; lia].
  apply abs_round_le_generic; auto with typeclass_instances. apply fmt_bpow; lia.
Qed.

Lemma rnd_abs_le x e : (-1074 <= e)%Z -> (Rabs x <= bpow radix2 e)%R ->
  (Rabs (rnd x) <= bpow radix2 e)%R.
Proof.
  intros He Hx. apply abs_round_le_generic; auto with typeclass_instances. now apply fmt_bpow.
Qed.

Lemma bpow_IZR e : (0 <= e)%Z -> bpow radix2 e = IZR (2 ^ e).
Proof. intros H. now rewrite <- IZR_Zpower. Qed.

Lemma of_Z_repr z e : (0 <= e < 1024)%Z -> (Z.abs z <= 2 ^ e)%Z -> repr (f64_of_Z z) (rnd (IZR z)).
Proof.
  intros He Hz. unfold f64_of_Z. rewrite binary_normalize_equiv.
  pose proof (binary_normalize_correct 53 1024 p53 p53e mode_NE z 0 false) as H.
  assert (E : @F2R radix2 {| Fnum := z; Fexp := 0 |} = IZR z) by (unfold F2R; simpl; ring).
  cbv zeta in H. rewrite E in H.
  change (fexp 53 1024) with fx in H. change (round_mode mode_NE) with ZnearestE in H.
  rewrite (rnd_small _ e) in H.
  - destruct H as (H1 & H2 & _). eexists; repeat split; eassumption.
  - lia.
  - rewrite <- abs_IZR, bpow_IZR by lia. apply IZR_le. exact Hz.
Qed.

Lemma add_repr a b x y e : (-1074 <= e < 1024)%Z -> repr a x -> repr b y ->
  (Rabs (x + y) <= bpow radix2 e)%R -> repr (f64_add a b) (rnd (x + y)).
Proof.
  intros He (u & <- & Fu & <-) (v & <- & Fv & <-) Hb. rewrite add_equiv.
  pose proof (Bplus_correct 53 1024 _ _ mode_NE u v Fu Fv) as H.
  change (fexp 53 1024) with fx in H. change (round_mode mode_NE) with ZnearestE in H.
  rewrite (rnd_small _ e) in H by auto. destruct H as (H1 & H2 & _).
  eexists; repeat split; eassumption.
Qed.

Lemma sub_repr a b x y e : (-1074 <= e < 1024)%Z -> repr a x -> repr b y ->
  (Rabs (x - y) <= bpow radix2 e)%R -> repr (f64_sub a b) (rnd (x - y)).
Proof.
  intros He (u & <- & Fu & <-) (v & <- & Fv & <-) Hb. rewrite sub_equiv.
  pose proof (Bminus_correct 53 1024 _ _ mode_NE u v Fu Fv) as H.
  change (fexp 53 1024) with fx in H. change (round_mode mode_NE) with ZnearestE in H.
  rewrite (rnd_small _ e) in H by auto. destruct H as (H1 & H2 & _).
  eexists; repeat split; eassumption.
Qed.

Lemma div_repr a b x y e : (-1074 <= e < 1024)%Z -> repr a x -> repr b y -> y <> 0%R ->
  (Rabs (x / y) <= bpow radix2 e)%R -> repr (f64_div a b) (rnd (x / y)).
Proof.
  intros He (u & <- & Fu & <-) (v & <- & Fv & <-) Hy Hb. rewrite div_equiv.
  pose proof (Bdiv_correct 53 1024 _ _ mode_NE u v Hy) as H.
  change (fexp 53 1024) with fx in H. change (round_mode mode_NE) with ZnearestE in H.
  rewrite (rnd_small _ e) in H by auto. destruct H as (H1 & H2 & _).
  eexists; repeat split; try eassumption. congruence.
Qed.

(** * One update stays within the hull of the old average and the new value *)
Lemma half_step_le y : (exists x a, fmt x /\ fmt a /\ y = (x - a)%R) -> (0 <= y)%R ->
  (rnd (rnd y / 2) <= y)%R.
Proof.
  intros (x & a & Fx & Fa & ->) Hy. set (y := (x - a)%R) in *.
  destruct (Rle_or_lt (Rabs y) (bpow radix2 (53 + -1074))) as [Hs|Hl].
  - assert (Fy : fmt y).
    { unfold y, Rminus. apply FLT_format_plus_small; auto with typeclass_instances.
      now apply generic_format_opp. }
    rewrite (round_generic _ _ _ y) by auto. apply round_le_generic; auto with typeclass_instances. lra.
  - rewrite Rabs_pos_eq in Hl by auto.
    assert (He : (/ 2 * bpow radix2 (- (53) + 1) <= / 8)%R).
    { apply Rmult_le_reg_l with 2%R; [lra|]. rewrite <- Rmult_assoc, Rinv_r, Rmult_1_l by lra.
      apply Rle_trans with (bpow radix2 (-2)); [apply bpow_le; lia|simpl; lra]. }
    assert (B1 : (bpow radix2 (-1074 + 53 - 1) <= Rabs y)%R).
    { rewrite Rabs_pos_eq by auto. apply Rlt_le. eapply Rle_lt_trans; [|exact Hl]. apply bpow_le; lia. }
    pose proof (relative_error_N_FLT radix2 (-1074) 53 eq_refl (fun z => negb (Z.even z)) y B1) as R1.
    assert (D0 : (bpow radix2 (53 + -1074) <= rnd y)%R).
    { apply round_ge_generic; auto with typeclass_instances; [apply fmt_bpow; lia|lra]. }
    assert (B2 : (bpow radix2 (-1074 + 53 - 1) <= Rabs (rnd y / 2))%R).
    { rewrite Rabs_pos_eq.
      - replace (-1074 + 53 - 1)%Z with (53 + -1074 + -1)%Z by lia. rewrite bpow_plus. simpl (bpow radix2 (-1)). lra.
      - pose proof (bpow_ge_0 radix2 (53 + -1074)). lra. }
    pose proof (relative_error_N_FLT radix2 (-1074) 53 eq_refl (fun z => negb (Z.even z)) _ B2) as R2.
    fold ZnearestE in R1, R2. change (Znearest (fun z => negb (Z.even z))) with ZnearestE in *.
    assert (P2 : (0 <= rnd y / 2)%R) by (pose proof (bpow_ge_0 radix2 (53 + -1074)); lra).
    rewrite (Rabs_pos_eq (rnd y / 2)) in R2 by auto.
    rewrite (Rabs_pos_eq y) in R1 by auto.
    apply Rabs_le_inv in R1. apply Rabs_le_inv in R2.
    set (E := (/ 2 * bpow radix2 (- (53) + 1))%R) in *.
    assert (0 <= E)%R by (unfold E; pose proof (bpow_ge_0 radix2 (-(53)+1)); lra).
    nra.
Qed.

Lemma hull_hi a x k M : fmt a -> fmt x -> fmt M -> (a <= M)%R -> (x <= M)%R -> (2 <= k)%R ->
  (rnd (a + rnd (rnd (x - a) / k)) <= M)%R.
Proof.
  intros Fa Fx FM Ha Hx Hk. apply round_le_generic; auto with typeclass_instances.
  assert (Z0 : fmt 0) by apply generic_format_0.
  destruct (Rle_or_lt x a) as [H|H].
  - assert (D : (rnd (x - a) <= 0)%R) by (apply round_le_generic; auto with typeclass_instances; lra).
    assert (Q : (rnd (rnd (x - a) / k) <= 0)%R).
    { apply round_le_generic; auto with typeclass_instances.
      unfold Rdiv. assert (0 < / k)%R by (apply Rinv_0_lt_compat; lra). nra. }
    lra.
  - assert (D : (0 <= rnd (x - a))%R) by (apply round_ge_generic; auto with typeclass_instances; lra).
    assert (Q : (rnd (rnd (x - a) / k) <= rnd (rnd (x - a) / 2))%R).
    { apply round_le; auto with typeclass_instances. unfold Rdiv. apply Rmult_le_compat_l; auto.
      apply Rinv_le; lra. }
    assert (H2 : (rnd (rnd (x - a) / 2) <= x - a)%R).
    { apply half_step_le; [|lra]. exists x, a; auto. }
    lra.
Qed.

Lemma hull_lo a x k m : fmt a -> fmt x -> fmt m -> (m <= a)%R -> (m <= x)%R -> (2 <= k)%R ->
  (m <= rnd (a + rnd (rnd (x - a) / k)))%R.
Proof.
  intros Fa Fx Fm Ha Hx Hk.
  assert (H : (rnd (- a + rnd (rnd (- x - - a) / k)) <= - m)%R).
  { apply hull_hi; auto using generic_format_opp; lra. }
  replace (- x - - a)%R with (- (x - a))%R in H by ring.
  rewrite round_NE_opp in H.
  replace (- rnd (x - a) / k)%R with (- (rnd (x - a) / k))%R in H by (unfold Rdiv; ring).
  rewrite round_NE_opp in H.
  replace (- a + - rnd (rnd (x - a) / k))%R with (- (a + rnd (rnd (x - a) / k)))%R in H by ring.
  rewrite round_NE_opp in H. lra.
Qed.

(** The average [a] is finite and lies in [lo, hi]. *)
Definition avg_in (lo hi : R) (a : f64) : Prop := exists r, repr a r /\ (lo <= r <= hi)%R.

Lemma rnd_IZR_abs v : (Z.abs v <= 2 ^ 63)%Z -> (Rabs (rnd (IZR v)) <= bpow radix2 63)%R.
Proof.
  intros H. apply rnd_abs_le; [lia|]. rewrite <- abs_IZR, bpow_IZR by lia. now apply IZR_le.
Qed.

Lemma avg_first v : (Z.abs v <= 2 ^ 63)%Z -> repr (avg_step avg0 1 v) (rnd (IZR v)).
Proof.
  intros Hv. unfold avg_step. pose proof (rnd_IZR_abs v Hv) as Hr.
  assert (R0 : repr avg0 0) by (exists (B754_zero false); repeat split).
  assert (R1 : repr (f64_of_Z 1) 1).
  { replace 1%R with (rnd (IZR 1)).
    - apply (of_Z_repr 1 1); lia.
    - apply round_generic; auto with typeclass_instances. change 1%R with (bpow radix2 0). apply fmt_bpow; lia. }
  assert (Fr : fmt (rnd (IZR v))) by (apply generic_format_round; auto with typeclass_instances).
  assert (RD : repr (f64_sub (f64_of_Z v) avg0) (rnd (IZR v))).
  { assert (E : rnd (rnd (IZR v) - 0) = rnd (IZR v)).
    { rewrite Rminus_0_r. apply round_generic; auto with typeclass_instances. }
    rewrite <- E at 1.
    apply sub_repr with (e := 63%Z); auto; [lia| |].
    - apply (of_Z_repr v 63); lia.
    - now rewrite Rminus_0_r. }
  assert (RQ : repr (f64_div (f64_sub (f64_of_Z v) avg0) (f64_of_Z 1)) (rnd (IZR v))).
  { assert (E : rnd (rnd (IZR v) / 1) = rnd (IZR v)).
    { unfold Rdiv. rewrite Rinv_1, Rmult_1_r. apply round_generic; auto with typeclass_instances. }
    rewrite <- E at 1. apply div_repr with (e := 63%Z); auto; [lia|].
    unfold Rdiv. now rewrite Rinv_1, Rmult_1_r. }
  assert (E : rnd (0 + rnd (IZR v)) = rnd (IZR v)).
  { rewrite Rplus_0_l. apply round_generic; auto with typeclass_instances. }
  rewrite <- E. apply add_repr with (e := 63%Z); auto; [lia|]. now rewrite Rplus_0_l.
Qed.

Lemma avg_next_repr a r k v :
  repr a r -> (Rabs r <= bpow radix2 63)%R -> (Z.abs v <= 2 ^ 63)%Z -> (1 <= k <= 2 ^ 64)%Z ->
  repr (avg_step a k v) (rnd (r + rnd (rnd (rnd (IZR v) - r) / rnd (IZR k)))).
Proof.
  intros Hr Br Hv Hk. unfold avg_step. pose proof (rnd_IZR_abs v Hv) as Bv.
  assert (B64 : bpow radix2 64 = (2 * bpow radix2 63)%R) by (rewrite !bpow_IZR by lia; rewrite <- mult_IZR; reflexivity).
  assert (B65 : bpow radix2 65 = (2 * bpow radix2 64)%R) by (rewrite !bpow_IZR by lia; rewrite <- mult_IZR; reflexivity).
  assert (Fk : (1 <= rnd (IZR k))%R).
  { apply round_ge_generic; auto with typeclass_instances.
    - change 1%R with (bpow radix2 0). apply fmt_bpow; lia.
    - apply IZR_le; lia. }
  assert (BD : (Rabs (rnd (IZR v) - r) <= bpow radix2 64)%R).
  { rewrite B64. apply Rabs_le. apply Rabs_le_inv in Br. apply Rabs_le_inv in Bv. lra. }
  assert (BD' := rnd_abs_le _ 64 ltac:(lia) BD).
  assert (BQ : (Rabs (rnd (rnd (IZR v) - r) / rnd (IZR k)) <= bpow radix2 64)%R).
  { unfold Rdiv. rewrite Rabs_mult. rewrite (Rabs_pos_eq (/ rnd (IZR k))).
    - assert (/ rnd (IZR k) <= 1)%R.
      { rewrite <- Rinv_1. apply Rinv_le; lra. }
      assert (0 < / rnd (IZR k))%R by (apply Rinv_0_lt_compat; lra).
      pose proof (Rabs_pos (rnd (rnd (IZR v) - r))). nra.
    - left. apply Rinv_0_lt_compat; lra. }
  assert (BQ' := rnd_abs_le _ 64 ltac:(lia) BQ).
  apply add_repr with (e := 65%Z); [lia|auto| |].
  - apply div_repr with (e := 64%Z); auto; [lia| | |lra].
    + apply sub_repr with (e := 64%Z); auto; [lia|]. apply (of_Z_repr v 63); lia.
    + apply (of_Z_repr k 64); lia.
  - rewrite B65. apply Rabs_le. apply Rabs_le_inv in Br. apply Rabs_le_inv in BQ'. lra.
Qed.

Lemma rnd_ge2 k : (2 <= k)%Z -> (2 <= rnd (IZR k))%R.
Proof.
  intros Hk. apply round_ge_generic; auto with typeclass_instances.
  - change 2%R with (bpow radix2 1). apply fmt_bpow; lia.
  - apply IZR_le; lia.
Qed.

Lemma avg_next lo hi a k v :
  fmt lo -> fmt hi -> (- bpow radix2 63 <= lo)%R -> (hi <= bpow radix2 63)%R ->
  avg_in lo hi a -> (lo <= rnd (IZR v) <= hi)%R -> (Z.abs v <= 2 ^ 63)%Z -> (2 <= k <= 2 ^ 64)%Z ->
  avg_in lo hi (avg_step a k v).
Proof.
  intros Fl Fh Hl Hh (r & Hr & Br) Bv Hv Hk.
  eexists; split.
  - apply avg_next_repr; eauto; [|lia]. apply Rabs_le; lra.
  - assert (Fr := repr_fmt _ _ Hr).
    assert (Fv : fmt (rnd (IZR v))) by (apply generic_format_round; auto with typeclass_instances).
    split; [apply hull_lo|apply hull_hi]; auto using rnd_ge2; try lra; apply rnd_ge2; lia.
Qed.

(** Truncating cast. *)
Lemma f64_trunc_correct s m e (H : bounded 53 1024 m e = true) :
  f64_trunc s m e = Ztrunc (B2R (B754_finite s m e H)).
Proof.
  assert (P : forall m e, (if (0 <=? e)%Z then (Zpos m * 2 ^ e)%Z else (Zpos m / 2 ^ (- e))%Z)
                          = Ztrunc (@F2R radix2 {| Fnum := Zpos m; Fexp := e |})).
  { clear. intros m e. unfold F2R; simpl Fnum; simpl Fexp. destruct (Z.leb_spec 0 e).
    - rewrite bpow_IZR, <- mult_IZR by lia. now rewrite Ztrunc_IZR.
    - rewrite Ztrunc_floor.
      + rewrite <- Zfloor_div.
        * f_equal. replace e with (- (- e))%Z at 2 by lia. rewrite bpow_opp, bpow_IZR by lia. reflexivity.
        * pose proof (Z.pow_pos_nonneg 2 (- e)). lia.
      + apply Rmult_le_pos; [apply IZR_le; lia|apply bpow_ge_0]. }
  unfold f64_trunc, B2R. destruct s; unfold cond_Zopp.
  - rewrite P. rewrite <- Ztrunc_opp. f_equal. unfold F2R; simpl Fnum; simpl Fexp.
    change (Z.neg m) with (- Z.pos m)%Z. rewrite opp_IZR. ring.
  - apply P.
Qed.

Lemma cast_in lo hi a : avg_in (IZR lo) (IZR hi) a -> (i64_min <= lo)%Z -> (hi <= i64_max)%Z ->
  exists z, f64_to_i64 a = Ok z /\ (lo <= z <= hi)%Z.
Proof.
  intros (r & (b & <- & Fb & <-) & Hr) Hl Hh.
  exists (Ztrunc (B2R b)).
  assert (B : (lo <= Ztrunc (B2R b) <= hi)%Z).
  { rewrite <- (Ztrunc_IZR lo), <- (Ztrunc_IZR hi) at 1. split; apply Ztrunc_le; lra. }
  split; auto.
  destruct b as [s|s| |s m e H]; try discriminate.
  - simpl. now rewrite Ztrunc_IZR.
  - simpl B2SF. unfold f64_to_i64. rewrite (f64_trunc_correct s m e H).
    unfold chk, in_i64.
    rewrite (proj2 (Z.leb_le _ _)), (proj2 (Z.leb_le _ _)); [reflexivity|lia|lia].
Qed.

Lemma rnd_exact z : (Z.abs z <= 2 ^ 53)%Z -> rnd (IZR z) = IZR z.
Proof.
  intros H. apply round_generic; auto with typeclass_instances.
  apply (@generic_format_FLT radix2). 
  destruct (Z.eq_dec (Z.abs z) (2 ^ 53)) as [E|E].
  - apply FLT_format_generic; auto with typeclass_instances.
    assert (A : fmt (bpow radix2 53)) by (apply fmt_bpow; lia).
    rewrite bpow_IZR in A by lia. 
    destruct (Z.abs_spec z) as [[? E2]|[? E2]].
    + replace z with (2 ^ 53)%Z by lia. exact A.
    + replace z with (- 2 ^ 53)%Z by lia. rewrite opp_IZR. now apply generic_format_opp.
  - exists {| Fnum := z; Fexp := 0 |}; simpl; try lia.
    unfold F2R; simpl. ring.
Qed.

(** * Safe range of the final cast *)
Lemma rnd_safe v : (- 2 ^ 63 <= v < 2 ^ 63 - 512)%Z ->
  (- bpow radix2 63 <= rnd (IZR v))%R /\ (rnd (IZR v) < bpow radix2 63)%R.
Proof.
  intros [Hl Hh].
  assert (B : bpow radix2 63 = IZR (2 ^ 63)) by (apply bpow_IZR; lia).
  split.
  - apply round_ge_generic; auto with typeclass_instances.
    + apply generic_format_opp. apply fmt_bpow; lia.
    + rewrite B, <- opp_IZR. apply IZR_le. lia.
  - assert (Ff : fmt (IZR (2 ^ 63 - 1024))).
    { apply generic_format_FLT. exists {| Fnum := (2 ^ 53 - 1)%Z; Fexp := 10 |}; simpl; try lia.
      unfold F2R; simpl. lra. }
    destruct (Z_le_gt_dec v (2 ^ 63 - 1024)) as [H|H].
    + apply Rle_lt_trans with (IZR (2 ^ 63 - 1024)).
      * apply round_le_generic; auto with typeclass_instances. apply IZR_le; lia.
      * rewrite B. apply IZR_lt. lia.
    + pose proof (round_N_pt radix2 fx (fun z => negb (Z.even z)) (IZR v)) as [_ N].
      specialize (N _ Ff). change (Znearest (fun z => negb (Z.even z))) with ZnearestE in N.
      assert (C : (Rabs (IZR (2 ^ 63 - 1024) - IZR v) < 512)%R).
      { rewrite <- minus_IZR, <- abs_IZR. apply IZR_lt. lia. }
      assert (D : (Rabs (rnd (IZR v) - IZR v) < 512)%R) by lra.
      apply Rabs_lt_inv in D. rewrite B.
      assert (E : (IZR v <= IZR (2 ^ 63) - 512)%R).
      { rewrite <- minus_IZR. apply IZR_le. lia. }
      lra.
Qed.

Lemma cast_lt a lo hi : avg_in lo hi a -> (- bpow radix2 63 <= lo)%R -> (hi < bpow radix2 63)%R ->
  exists z, f64_to_i64 a = Ok z.
Proof.
  intros (r & (b & <- & Fb & <-) & Hr) Hl Hh.
  assert (B : bpow radix2 63 = IZR (2 ^ 63)) by (apply bpow_IZR; lia).
  exists (Ztrunc (B2R b)).
  assert (L : (i64_min <= Ztrunc (B2R b))%Z).
  { rewrite <- (Ztrunc_IZR i64_min). apply Ztrunc_le. unfold i64_min. 
    replace (IZR (-9223372036854775808)) with (- IZR (2 ^ 63))%R by (rewrite <- opp_IZR; reflexivity). lra. }
  assert (H : (Ztrunc (B2R b) <= i64_max)%Z).
  { assert (Ztrunc (B2R b) < 2 ^ 63)%Z; [|unfold i64_max; lia].
    destruct (Rle_or_lt 0 (B2R b)) as [P|P].
    - rewrite Ztrunc_floor by auto. apply lt_IZR. eapply Rle_lt_trans; [apply Zfloor_lb|]. lra.
    - rewrite Ztrunc_ceil by lra.
      apply Z.le_lt_trans with 0%Z; [|lia].
      apply Zceil_glb. simpl. lra. }
  destruct b as [s|s| |s m e Hb]; try discriminate.
  - simpl. now rewrite Ztrunc_IZR.
  - simpl B2SF. unfold f64_to_i64. rewrite (f64_trunc_correct s m e Hb).
    unfold chk, in_i64.
    rewrite (proj2 (Z.leb_le _ _)), (proj2 (Z.leb_le _ _)); [reflexivity|lia|lia].
Qed.

Lemma fmt_rnd x : fmt (rnd x).
Proof. apply generic_format_round; auto with typeclass_instances. Qed.

Lemma fmt_b63 : fmt (bpow radix2 63).
Proof. apply fmt_bpow. lia. Qed.

