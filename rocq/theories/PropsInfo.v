(** Property C45: merging summary records. *)
From Coq Require Import ZArith List Bool Permutation Sorted Lia.
From Verif Require Import Base SortFacts ModelTypes ModelRegistry ModelInfo.
Import ListNotations.
Local Open Scope Z_scope.

(** The five percentiles as a list *)
Definition percs (p : perc) : list Z := [p50 p; p80 p; p95 p; p99 p; p100 p].
Definition ordered (p : perc) : Prop := p50 p <= p80 p /\ p80 p <= p95 p /\ p95 p <= p99 p /\ p99 p <= p100 p.
(** total += v1; total += v2; ... starting from a blank record *)
Definition blank : ainfo := mk_ainfo (mk_rinfo 0 0 0 0 0 0) perc0.
Fixpoint merge_all (t : ainfo) (vs : list ainfo) : outcome ainfo :=
  match vs with
  | [] => Ok t
  | v :: r => t' <- ai_merge t v ;; merge_all t' r
  end.
Definition zsum (l : list Z) : Z := fold_right Z.add 0 l.
Definition field (f : rinfo -> Z) (vs : list ainfo) : list Z := map (fun v => f (ai_info v)) vs.

Lemma chk_ok z y : chk z = Ok y -> y = z /\ in_i64 z = true.
Proof. unfold chk. destruct (in_i64 z); intros H; [injection H as <-; auto|discriminate]. Qed.
Lemma in_chk z : i64_min <= z <= i64_max -> chk z = Ok z.
Proof. intros H. unfold chk, in_i64. rewrite (proj2 (Z.leb_le _ _)), (proj2 (Z.leb_le _ _)) by lia. reflexivity. Qed.
Lemma to_i64_small n : 0 <= n <= i64_max -> to_i64 n = n.
Proof.
  unfold to_i64, u64, two64, i64_max. intros H. rewrite Z.mod_small by lia. change (2 ^ 63) with 9223372036854775808.
  destruct (Z.ltb_spec n 9223372036854775808); lia.
Qed.
Lemma u64_small n : 0 <= n < two64 -> u64 n = n.
Proof. intros H. apply Z.mod_small. exact H. Qed.

Lemma merge_fields a v r : ri_merge a v = Ok r -> ri_ts a <> 0 ->
  ri_ts r = ri_ts a /\ ri_count r = u64 (ri_count a + ri_count v) /\ ri_lossy r = u64 (ri_lossy a + ri_lossy v) /\
  ri_min r = Z.min (ri_min a) (ri_min v) /\ ri_max r = Z.min (ri_max a) (ri_max v).
Proof.
  unfold ri_merge. intros H T. destruct (Z.eqb_spec (ri_ts a) 0); [congruence|]. cbv zeta in H.
  match type of H with bind ?e _ = _ => destruct e as [x| |]; try discriminate end. injection H as <-. simpl. auto.
Qed.

Lemma quot_between s n lo hi : 0 < n -> lo * n <= s <= hi * n -> lo <= Z.quot s n <= hi.
Proof.
  intros Hn [A B]. rewrite <- (Z.quot_mul lo n), <- (Z.quot_mul hi n) at 1 by lia. split; apply Z.quot_le_mono; lia.
Qed.

Lemma merge_avg a v r : ri_merge a v = Ok r -> ri_ts a <> 0 -> 0 <= ri_count a -> 0 <= ri_count v -> ri_count a + ri_count v <= i64_max ->
  (ri_count a + ri_count v = 0 -> ri_avg r = Z.quot (ri_avg a + ri_avg v) 2) /\
  (ri_count a + ri_count v <> 0 -> ri_avg r = Z.quot (ri_count a * ri_avg a + ri_count v * ri_avg v) (ri_count a + ri_count v)).
Proof.
  unfold ri_merge. intros H T A B C. destruct (Z.eqb_spec (ri_ts a) 0); [congruence|]. cbv zeta in H.
  rewrite (u64_small (ri_count a + ri_count v)) in H by (unfold two64, i64_max in *; lia).
  rewrite !to_i64_small in H by lia. split; intros N.
  - rewrite N in H. simpl in H. destruct (chk (ri_avg a + ri_avg v)) as [s| |] eqn:E; try discriminate.
    apply chk_ok in E. destruct E as [-> _]. injection H as <-. reflexivity.
  - destruct (Z.eqb_spec (ri_count a + ri_count v) 0); [congruence|]. cbn [negb] in H.
    destruct (chk (ri_count a * ri_avg a)) as [x| |] eqn:E1; try discriminate. apply chk_ok in E1. destruct E1 as [-> _]. cbn [bind] in H.
    destruct (chk (ri_count v * ri_avg v)) as [x| |] eqn:E2; try discriminate. apply chk_ok in E2. destruct E2 as [-> _]. cbn [bind] in H.
    destruct (chk (_ + _)) as [x| |] eqn:E3; try discriminate. apply chk_ok in E3. destruct E3 as [-> _]. cbn [bind] in H.
    destruct (chk _) as [x| |] eqn:E4 in H; try discriminate. apply chk_ok in E4. destruct E4 as [-> _]. injection H as <-. reflexivity.
Qed.

Lemma pinsert_perm x l : Permutation (x :: l) (pinsert x l).
Proof. induction l as [|y t IH]; simpl; [reflexivity|]. destruct (pair_leb x y); [reflexivity|]. rewrite perm_swap. now constructor. Qed.
Lemma psort_perm l : Permutation l (psort l).
Proof. induction l as [|x t IH]; simpl; [reflexivity|]. rewrite <- pinsert_perm. now constructor. Qed.

Lemma weighed5_snd p c l : weighed5 p c = Ok l -> map snd l = percs p.
Proof.
  unfold weighed5, weighed. intros H.
  repeat (match type of H with context [chk ?z] => destruct (chk z); cbn [bind] in H; try discriminate end).
  injection H as <-. reflexivity.
Qed.

Lemma merge_percs a v r : ai_merge a v = Ok r -> ri_ts (ai_info a) <> 0 ->
  ordered (ai_perc r) /\ incl (percs (ai_perc r)) (percs (ai_perc a) ++ percs (ai_perc v)).
Proof.
  unfold ai_merge. intros H T. destruct (Z.eqb_spec (ri_ts (ai_info a)) 0); [congruence|].
  destruct (ri_merge (ai_info a) (ai_info v)) as [i| |]; try discriminate. cbn [bind] in H.
  destruct (weighed5 (ai_perc a) _) as [l1| |] eqn:E1; try discriminate. cbn [bind] in H.
  destruct (weighed5 (ai_perc v) _) as [l2| |] eqn:E2; try discriminate. cbn [bind] in H.
  apply weighed5_snd in E1. apply weighed5_snd in E2.
  pose proof (psort_perm (l1 ++ l2)) as P. set (arr1 := psort (l1 ++ l2)) in *. clearbody arr1.
  assert (L : length arr1 = 10%nat).
  { rewrite <- (Permutation_length P), app_length, <- (map_length snd l1), <- (map_length snd l2), E1, E2. reflexivity. }
  set (l3 := [second_at arr1 3; second_at arr1 6; second_at arr1 7; second_at arr1 8; second_at arr1 9]) in *.
  assert (I3 : incl l3 (percs (ai_perc a) ++ percs (ai_perc v))).
  { rewrite <- E1, <- E2, <- map_app. intros x Hx. apply (Permutation_in _ (Permutation_map snd (Permutation_sym P))).
    assert (N : exists i, (i < 10)%nat /\ x = second_at arr1 i).
    { unfold l3 in Hx. simpl in Hx. destruct Hx as [<-|[<-|[<-|[<-|[<-|[]]]]]]; eexists; (split; [|reflexivity]); lia. }
    destruct N as (k & Hk & ->). unfold second_at. apply in_map, nth_In. lia. }
  assert (L3 : length l3 = 5%nat) by reflexivity. clearbody l3.
  pose proof (isort_perm l3) as Q. pose proof (isort_sorted l3) as S. pose proof (isort_length l3) as L4. rewrite L3 in L4.
  injection H as <-. cbn [ai_perc]. set (l4 := isort l3) in *. clearbody l4.
  destruct l4 as [|x0 [|x1 [|x2 [|x3 [|x4 [|]]]]]]; try discriminate. cbn [nth]. split.
  - unfold ordered. cbn [p50 p80 p95 p99 p100].
    repeat match goal with H : StronglySorted _ (_ :: _) |- _ => apply StronglySorted_inv in H; destruct H as [? H] end.
    repeat match goal with H : Forall _ (_ :: _) |- _ => inversion H; clear H; subst end. lia.
  - unfold percs at 1. cbn [p50 p80 p95 p99 p100]. intros x Hx. apply I3. apply (Permutation_in _ (Permutation_sym Q)). exact Hx.
Qed.

Lemma ai_merge_info a v r : ai_merge a v = Ok r -> ri_ts (ai_info a) <> 0 -> ri_merge (ai_info a) (ai_info v) = Ok (ai_info r).
Proof.
  unfold ai_merge. intros H T. destruct (Z.eqb_spec (ri_ts (ai_info a)) 0); [congruence|].
  destruct (ri_merge (ai_info a) (ai_info v)) as [i| |]; try discriminate. cbn [bind] in H.
  destruct (weighed5 (ai_perc a) _) as [l1| |]; try discriminate. cbn [bind] in H.
  destruct (weighed5 (ai_perc v) _) as [l2| |]; try discriminate. cbn [bind] in H. injection H as <-. reflexivity.
Qed.

(** A blank record becomes a copy of the right operand. *)
Theorem C45_blank_copies : forall a v, ri_ts (ai_info a) = 0 -> ai_merge a v = Ok v /\ ri_merge (ai_info a) (ai_info v) = Ok (ai_info v).
Proof. intros a v H. unfold ai_merge, ri_merge. rewrite H. auto. Qed.
Print Assumptions C45_blank_copies.

(** Counters are added modulo 2^64, the smaller minimum is taken, the time stamp stays. *)
Theorem C45_counters : forall a v r, ai_merge a v = Ok r -> ri_ts (ai_info a) <> 0 ->
  ri_ts (ai_info r) = ri_ts (ai_info a) /\
  ri_count (ai_info r) = (ri_count (ai_info a) + ri_count (ai_info v)) mod 2 ^ 64 /\
  ri_lossy (ai_info r) = (ri_lossy (ai_info a) + ri_lossy (ai_info v)) mod 2 ^ 64 /\
  ri_min (ai_info r) = Z.min (ri_min (ai_info a)) (ri_min (ai_info v)).
Proof.
  intros a v r H T. apply ai_merge_info in H; [|exact T]. apply merge_fields in H; [|exact T].
  destruct H as (A & B & C & D & _). auto.
Qed.
Print Assumptions C45_counters.

(** The average is the count-weighted mean rounded towards zero (without counts, the plain mean), so it lies between both. *)
Theorem C45_average : forall a v r na nv, ai_merge a v = Ok r -> ri_ts (ai_info a) <> 0 ->
  na = ri_count (ai_info a) -> nv = ri_count (ai_info v) -> 0 <= na -> 0 <= nv -> na + nv <= i64_max ->
  (na + nv = 0 -> ri_avg (ai_info r) = Z.quot (ri_avg (ai_info a) + ri_avg (ai_info v)) 2) /\
  (na + nv <> 0 -> ri_avg (ai_info r) = Z.quot (na * ri_avg (ai_info a) + nv * ri_avg (ai_info v)) (na + nv)) /\
  Z.min (ri_avg (ai_info a)) (ri_avg (ai_info v)) <= ri_avg (ai_info r) <= Z.max (ri_avg (ai_info a)) (ri_avg (ai_info v)).
Proof.
  intros a v r na nv H T -> -> A B C. apply ai_merge_info in H; [|exact T]. destruct (merge_avg _ _ _ H T A B C) as [X Y].
  split; [exact X|]. split; [exact Y|]. destruct (Z.eq_dec (ri_count (ai_info a) + ri_count (ai_info v)) 0) as [E|E].
  - rewrite (X E). apply quot_between; lia.
  - rewrite (Y E). apply quot_between; [lia|]. nia.
Qed.
Print Assumptions C45_average.

(** The percentiles come out in order and each of them is a percentile of one of the operands. *)
Theorem C45_percentiles : forall a v r, ai_merge a v = Ok r -> ri_ts (ai_info a) <> 0 ->
  ordered (ai_perc r) /\ incl (percs (ai_perc r)) (percs (ai_perc a) ++ percs (ai_perc v)).
Proof. exact merge_percs. Qed.
Print Assumptions C45_percentiles.

(** Which ones: the five percentiles of each operand, weighed with its count (the merged one on the left), are sorted by weight, ties by
    value, and those in the places 3, 6, 7, 8 and 9 (from 0) are taken. *)
Definition candidates (n : Z) (p : perc) : list (Z * Z) :=
  [(p50 p * (Z.quot n 2 + 1), p50 p); (p80 p * (Z.quot n 3 + 1), p80 p); (p95 p * (Z.quot n 6 + 1), p95 p);
   (p99 p * (Z.quot n 10 + 1), p99 p); (p100 p * (Z.quot n 100 + 1), p100 p)].
Definition before (x y : Z * Z) : Prop := fst x < fst y \/ (fst x = fst y /\ snd x <= snd y).
Lemma pair_leb_before x y : if pair_leb x y then before x y else before y x.
Proof.
  destruct x as [a b], y as [c d]. unfold pair_leb, before. cbn [fst snd].
  destruct (Z.ltb_spec a c), (Z.eqb_spec a c), (Z.leb_spec b d); cbn [orb andb]; lia.
Qed.
Lemma before_trans x y z : before x y -> before y z -> before x z.
Proof. unfold before. lia. Qed.
Lemma pinsert_sorted x l : StronglySorted before l -> StronglySorted before (pinsert x l).
Proof.
  induction 1 as [|y t S IH F]; simpl; [repeat constructor|]. pose proof (pair_leb_before x y) as B. destruct (pair_leb x y).
  - constructor; [now constructor|]. constructor; [exact B|]. eapply Forall_impl; [|exact F]. intros z. apply before_trans. exact B.
  - constructor; [exact IH|]. eapply Permutation_Forall; [apply pinsert_perm|]. constructor; assumption.
Qed.
Lemma psort_sorted l : StronglySorted before (psort l).
Proof. induction l as [|x t IH]; simpl; [constructor|now apply pinsert_sorted]. Qed.
Lemma weighed5_candidates p c l : weighed5 p c = Ok l -> l = candidates c p.
Proof.
  unfold weighed5, weighed. intros H.
  repeat (match type of H with context [chk ?z] => destruct (chk z) eqn:?E; cbn [bind] in H; try discriminate end).
  repeat match goal with E : chk _ = Ok _ |- _ => apply chk_ok in E; destruct E as [-> _] end. injection H as <-. reflexivity.
Qed.
Lemma sorted5 l : length l = 5%nat ->
  Permutation (percs (mk_perc (nth 0 (isort l) 0) (nth 1 (isort l) 0) (nth 2 (isort l) 0) (nth 3 (isort l) 0) (nth 4 (isort l) 0))) l.
Proof.
  intros L. pose proof (isort_perm l) as Q. pose proof (isort_length l) as L'. rewrite L in L'.
  destruct (isort l) as [|x0 [|x1 [|x2 [|x3 [|x4 [|]]]]]]; try discriminate. apply Permutation_sym. exact Q.
Qed.
Theorem C45_percentiles_rule : forall a v r, ai_merge a v = Ok r -> ri_ts (ai_info a) <> 0 ->
  exists l, Permutation l (candidates (to_i64 (ri_count (ai_info r))) (ai_perc a) ++ candidates (to_i64 (ri_count (ai_info v))) (ai_perc v)) /\
    StronglySorted before l /\
    Permutation (percs (ai_perc r)) (map (fun i => snd (nth i l (0, 0))) [3; 6; 7; 8; 9]%nat).
Proof.
  unfold ai_merge. intros a v r H T. destruct (Z.eqb_spec (ri_ts (ai_info a)) 0); [congruence|].
  destruct (ri_merge (ai_info a) (ai_info v)) as [i| |]; try discriminate. cbn [bind] in H.
  destruct (weighed5 (ai_perc a) _) as [l1| |] eqn:E1; try discriminate. cbn [bind] in H.
  destruct (weighed5 (ai_perc v) _) as [l2| |] eqn:E2; try discriminate. cbn [bind] in H.
  apply weighed5_candidates in E1. apply weighed5_candidates in E2. exists (psort (l1 ++ l2)).
  remember [second_at (psort (l1 ++ l2)) 3; second_at (psort (l1 ++ l2)) 6; second_at (psort (l1 ++ l2)) 7; second_at (psort (l1 ++ l2)) 8;
    second_at (psort (l1 ++ l2)) 9] as l3 eqn:E3.
  injection H as <-. cbn [ai_info ai_perc]. rewrite <- E1, <- E2. split; [apply Permutation_sym, psort_perm|]. split; [apply psort_sorted|].
  change (map _ _) with [second_at (psort (l1 ++ l2)) 3; second_at (psort (l1 ++ l2)) 6; second_at (psort (l1 ++ l2)) 7; second_at (psort (l1 ++ l2)) 8;
    second_at (psort (l1 ++ l2)) 9]. rewrite <- E3. apply sorted5. rewrite E3. reflexivity.
Qed.
Print Assumptions C45_percentiles_rule.

Example C45_rule_witness : exists r, let a := mk_ainfo (mk_rinfo 7 1 0 1 9 4) (mk_perc 2 4 6 8 9) in
  let v := mk_ainfo (mk_rinfo 7 5 0 1 9 4) (mk_perc 3 3 7 8 8) in
  ai_merge a v = Ok r /\ candidates 6 (ai_perc a) = [(8, 2); (12, 4); (12, 6); (8, 8); (9, 9)] /\
  candidates 5 (ai_perc v) = [(9, 3); (6, 3); (7, 7); (8, 8); (8, 8)] /\ percs (ai_perc r) = [3; 4; 6; 8; 9].
Proof. eexists. cbv zeta. split; [vm_compute; reflexivity|]. vm_compute. auto. Qed.

(** No overflow as long as counts and values are moderate. *)
Theorem C45_defined : forall a v m, 0 <= ri_count (ai_info a) -> 0 <= ri_count (ai_info v) -> 0 <= m ->
  (ri_count (ai_info a) + ri_count (ai_info v) + 1) * m <= i64_max -> ri_count (ai_info a) + ri_count (ai_info v) <= i64_max ->
  2 * m <= i64_max ->
  Z.abs (ri_avg (ai_info a)) <= m -> Z.abs (ri_avg (ai_info v)) <= m ->
  Forall (fun p => Z.abs p <= m) (percs (ai_perc a) ++ percs (ai_perc v)) ->
  exists r, ai_merge a v = Ok r.
Proof.
  intros a v m A B M C D E Xa Xv F. unfold ai_merge. destruct (Z.eqb_spec (ri_ts (ai_info a)) 0) as [T|T]; [eauto|].
  set (ca := ri_count (ai_info a)) in *. set (cv := ri_count (ai_info v)) in *.
  assert (U : u64 (ca + cv) = ca + cv) by (apply u64_small; unfold two64, i64_max in *; lia).
  assert (R : exists i, ri_merge (ai_info a) (ai_info v) = Ok i).
  { unfold ri_merge. destruct (Z.eqb_spec (ri_ts (ai_info a)) 0); [eauto|]. fold ca cv. cbv zeta. rewrite U, !to_i64_small by lia.
    set (x := ri_avg (ai_info a)) in *. set (y := ri_avg (ai_info v)) in *. clearbody x y. clear F.
    assert (LO : i64_min = - i64_max - 1) by reflexivity.
    destruct (Z.eqb_spec (ca + cv) 0) as [N|N]; cbn [negb].
    - rewrite in_chk by lia. cbn [bind]. eauto.
    - rewrite (in_chk (ca * x)) by nia. cbn [bind]. rewrite (in_chk (cv * y)) by nia. cbn [bind]. rewrite (in_chk (_ + _)) by nia. cbn [bind].
      pose proof (quot_between (ca * x + cv * y) (ca + cv) (- m) m ltac:(lia) ltac:(nia)). rewrite in_chk by lia. cbn [bind]. eauto. }
  destruct R as [i Ri]. rewrite Ri. cbn [bind]. destruct (merge_fields _ _ _ Ri T) as (_ & Ec & _). fold ca cv in Ec. rewrite U in Ec. rewrite Ec.
  rewrite !to_i64_small by lia.
  assert (W : forall p c, 0 <= c <= ca + cv -> Forall (fun p => Z.abs p <= m) (percs p) -> exists l, weighed5 p c = Ok l).
  { intros p c Hc Fp. unfold percs in Fp. repeat match goal with H : Forall _ (_ :: _) |- _ => inversion H; clear H; subst end.
    assert (W : forall q k, 0 < k -> Z.abs q <= m -> weighed q c k = Ok (q * (Z.quot c k + 1), q)).
    { intros q k Hk Hq. unfold weighed. rewrite in_chk; [reflexivity|].
      pose proof (quot_between c k 0 c Hk ltac:(nia)) as Q. set (z := Z.quot c k) in *. clearbody z. assert (LO : i64_min = - i64_max - 1) by reflexivity. nia. }
    unfold weighed5. rewrite !W by (lia || assumption). cbn [bind]. eauto. }
  rewrite Forall_app in F. destruct F as [F1 F2].
  destruct (W (ai_perc a) (ca + cv) ltac:(lia) F1) as [l1 ->]. destruct (W (ai_perc v) cv ltac:(lia) F2) as [l2 ->]. cbn [bind]. eauto.
Qed.
Print Assumptions C45_defined.

(** The merged maximum is the smaller of both, for all records. *)
Theorem C45_max_partial : forall a v r, ai_merge a v = Ok r -> ri_ts (ai_info a) <> 0 ->
  ri_max (ai_info r) = Z.min (ri_max (ai_info a)) (ri_max (ai_info v)).
Proof. intros a v r H T. apply ai_merge_info in H; [|exact T]. apply merge_fields in H; [|exact T]. apply H. Qed.
Print Assumptions C45_max_partial.

Theorem C45_max_refuted : forall a v r, ai_merge a v = Ok r -> ri_ts (ai_info a) <> 0 -> ri_max (ai_info a) <> ri_max (ai_info v) ->
  ri_max (ai_info r) <> Z.max (ri_max (ai_info a)) (ri_max (ai_info v)).
Proof. intros a v r H T N. rewrite (C45_max_partial a v r H T). lia. Qed.
Print Assumptions C45_max_refuted.

(** Any number of records merged into a blank one. *)
Lemma merge_all_from : forall vs t r, ri_ts (ai_info t) <> 0 -> 0 <= ri_count (ai_info t) < two64 -> 0 <= ri_lossy (ai_info t) < two64 ->
  merge_all t vs = Ok r ->
  ri_ts (ai_info r) = ri_ts (ai_info t) /\
  ri_count (ai_info r) = (ri_count (ai_info t) + zsum (field ri_count vs)) mod 2 ^ 64 /\
  ri_lossy (ai_info r) = (ri_lossy (ai_info t) + zsum (field ri_lossy vs)) mod 2 ^ 64 /\
  ri_min (ai_info r) = fold_right Z.min (ri_min (ai_info t)) (field ri_min vs) /\
  ri_max (ai_info r) = fold_right Z.min (ri_max (ai_info t)) (field ri_max vs) /\
  incl (percs (ai_perc r)) (percs (ai_perc t) ++ flat_map (fun v => percs (ai_perc v)) vs) /\
  (ordered (ai_perc t) -> ordered (ai_perc r)).
Proof.
  induction vs as [|v vs IH]; intros t r T C L H; simpl in H.
  - injection H as <-. change (zsum (field ri_count [])) with 0. change (zsum (field ri_lossy [])) with 0. rewrite !Z.add_0_r. change (2 ^ 64) with two64.
    rewrite (Z.mod_small _ _ C), (Z.mod_small _ _ L). simpl flat_map. rewrite app_nil_r. do 5 (split; [reflexivity|]).
    split; [apply incl_refl|auto].
  - destruct (ai_merge t v) as [t'| |] eqn:E; try discriminate. cbn [bind] in H.
    destruct (merge_percs _ _ _ E T) as [PO PI]. pose proof (ai_merge_info _ _ _ E T) as E'. destruct (merge_fields _ _ _ E' T) as (X1 & X2 & X3 & X4 & X5).
    assert (B : forall z, 0 <= u64 z < two64) by (intros; apply Z.mod_pos_bound; reflexivity).
    destruct (IH t' r) as (Y1 & Y2 & Y3 & Y4 & Y5 & Y6 & Y7); [congruence|rewrite X2; apply B|rewrite X3; apply B|exact H|].
    rewrite X1, X2, X3, X4, X5 in *. unfold u64 in *. change (2 ^ 64) with two64 in *. cbn [field map zsum fold_right flat_map].
    rewrite Zplus_mod_idemp_l in Y2, Y3.
    split; [exact Y1|]. split; [rewrite Y2; f_equal; unfold zsum; simpl; unfold field; lia|]. split; [rewrite Y3; f_equal; unfold zsum; simpl; unfold field; lia|].
    assert (M : forall l x y, fold_right Z.min (Z.min x y) l = Z.min y (fold_right Z.min x l)) by (induction l; intros; simpl; [lia|rewrite IHl; lia]).
    split; [rewrite Y4; apply M|]. split; [rewrite Y5; apply M|]. split.
    + intros x Hx. apply Y6 in Hx. rewrite !in_app_iff in *. destruct Hx as [Hx|Hx]; [|auto]. apply PI in Hx. rewrite in_app_iff in Hx. tauto.
    + intros _. apply Y7. exact PO.
Qed.

Theorem C45_merge_many : forall v vs r, ri_ts (ai_info v) <> 0 -> 0 <= ri_count (ai_info v) < 2 ^ 64 -> 0 <= ri_lossy (ai_info v) < 2 ^ 64 ->
  merge_all blank (v :: vs) = Ok r ->
  ri_ts (ai_info r) = ri_ts (ai_info v) /\
  ri_count (ai_info r) = zsum (field ri_count (v :: vs)) mod 2 ^ 64 /\
  ri_lossy (ai_info r) = zsum (field ri_lossy (v :: vs)) mod 2 ^ 64 /\
  (In (ri_min (ai_info r)) (field ri_min (v :: vs)) /\ Forall (fun x => ri_min (ai_info r) <= x) (field ri_min (v :: vs))) /\
  incl (percs (ai_perc r)) (flat_map (fun x => percs (ai_perc x)) (v :: vs)) /\
  (ordered (ai_perc v) -> ordered (ai_perc r)).
Proof.
  intros v vs r T C L H. cbn [merge_all] in H. rewrite (proj1 (C45_blank_copies blank v eq_refl)) in H. cbn [bind] in H.
  destruct (merge_all_from vs v r T C L H) as (X1 & X2 & X3 & X4 & _ & X6 & X7).
  split; [exact X1|]. split; [exact X2|]. split; [exact X3|]. split; [|split; [exact X6|exact X7]].
  rewrite X4. cbn [field map]. fold (field ri_min vs). generalize (ri_min (ai_info v)), (field ri_min vs). clear. intros x l.
  assert (B : forall l, fold_right Z.min x l <= x /\ Forall (fun y => fold_right Z.min x l <= y) l).
  { induction l0 as [|y l0 [I1 I2]]; simpl; [split; [lia|constructor]|]. split; [lia|]. constructor; [lia|].
    eapply Forall_impl; [|exact I2]. simpl. intros; lia. }
  split.
  - clear B. induction l as [|y l IH]; simpl; [auto|]. simpl in IH. destruct (Z.min_spec y (fold_right Z.min x l)) as [[_ ->]|[_ ->]]; [auto|]. destruct IH; auto.
  - constructor; apply B.
Qed.
Print Assumptions C45_merge_many.

(** The maximum of many merged records is the smallest of theirs. *)
Theorem C45_max_many_partial : forall v vs r, ri_ts (ai_info v) <> 0 -> 0 <= ri_count (ai_info v) < 2 ^ 64 -> 0 <= ri_lossy (ai_info v) < 2 ^ 64 ->
  merge_all blank (v :: vs) = Ok r ->
  In (ri_max (ai_info r)) (field ri_max (v :: vs)) /\ Forall (fun x => ri_max (ai_info r) <= x) (field ri_max (v :: vs)).
Proof.
  intros v vs r T C L H. cbn [merge_all] in H. rewrite (proj1 (C45_blank_copies blank v eq_refl)) in H. cbn [bind] in H.
  destruct (merge_all_from vs v r T C L H) as (_ & _ & _ & _ & X & _).
  rewrite X. cbn [field map]. fold (field ri_max vs). generalize (ri_max (ai_info v)), (field ri_max vs). clear. intros x l.
  assert (B : forall l, fold_right Z.min x l <= x /\ Forall (fun y => fold_right Z.min x l <= y) l).
  { induction l0 as [|y l0 [I1 I2]]; simpl; [split; [lia|constructor]|]. split; [lia|]. constructor; [lia|].
    eapply Forall_impl; [|exact I2]. simpl. intros; lia. }
  split.
  - clear B. induction l as [|y l IH]; simpl; [auto|]. simpl in IH. destruct (Z.min_spec y (fold_right Z.min x l)) as [[_ ->]|[_ ->]]; [auto|]. destruct IH; auto.
  - constructor; apply B.
Qed.
Print Assumptions C45_max_many_partial.

(** The average of many merged records lies between the smallest and the greatest of theirs, as long as the sum of the counts fits. *)
Lemma merge_all_avg : forall lo hi vs t r, ri_ts (ai_info t) <> 0 -> 0 <= ri_count (ai_info t) -> Forall (fun v => 0 <= ri_count (ai_info v)) vs ->
  ri_count (ai_info t) + zsum (field ri_count vs) <= i64_max -> lo <= ri_avg (ai_info t) <= hi -> Forall (fun v => lo <= ri_avg (ai_info v) <= hi) vs ->
  merge_all t vs = Ok r -> lo <= ri_avg (ai_info r) <= hi.
Proof.
  intros lo hi. induction vs as [|v vs IH]; intros t r T C F M A B H; cbn [merge_all] in H.
  - injection H as <-. exact A.
  - inversion F as [|? ? F1 F2]; subst. inversion B as [|? ? B1 B2]; subst. destruct (ai_merge t v) as [t'| |] eqn:E; cbn [bind] in H; try discriminate.
    assert (P : 0 <= zsum (field ri_count vs)).
    { clear - F2. induction F2 as [|x l X F IH]; [reflexivity|]. unfold zsum, field in *. cbn [map fold_right]. lia. }
    assert (Q : zsum (field ri_count (v :: vs)) = ri_count (ai_info v) + zsum (field ri_count vs)) by reflexivity.
    destruct (C45_counters _ _ _ E T) as (X1 & X2 & _). destruct (C45_average _ _ _ _ _ E T eq_refl eq_refl C F1 ltac:(lia)) as (_ & _ & Y).
    rewrite Z.mod_small in X2 by (unfold i64_max in *; lia).
    apply (IH t' r); auto; try congruence; lia.
Qed.
Theorem C45_average_many : forall v vs r lo hi, ri_ts (ai_info v) <> 0 -> Forall (fun x => 0 <= ri_count (ai_info x)) (v :: vs) ->
  zsum (field ri_count (v :: vs)) <= i64_max -> Forall (fun x => lo <= ri_avg (ai_info x) <= hi) (v :: vs) ->
  merge_all blank (v :: vs) = Ok r -> lo <= ri_avg (ai_info r) <= hi.
Proof.
  intros v vs r lo hi T F S B H. cbn [merge_all] in H. rewrite (proj1 (C45_blank_copies blank v eq_refl)) in H. cbn [bind] in H.
  inversion F; inversion B; subst. eapply merge_all_avg; eauto.
Qed.
Print Assumptions C45_average_many.
Example C45_average_many_witness : exists v vs r, ri_ts (ai_info v) <> 0 /\ merge_all blank (v :: vs) = Ok r /\ zsum (field ri_count (v :: vs)) = 60 /\
  field ri_avg (v :: vs) = [10; 40; 25] /\ ri_avg (ai_info r) = 27 /\ field ri_max (v :: vs) = [50; 60; 70] /\ ri_max (ai_info r) = 50.
Proof.
  exists (mk_ainfo (mk_rinfo 7 10 2 5 50 10) perc0), [mk_ainfo (mk_rinfo 8 20 3 2 60 40) perc0; mk_ainfo (mk_rinfo 9 30 3 2 70 25) perc0].
  eexists. split; [discriminate|]. split; [vm_compute; reflexivity|]. vm_compute. auto 10.
Qed.

(** A record merged with an equal one should keep its percentiles: it does not, the 100th one drops below the old 99th. *)
Theorem C45_percentiles_refuted : exists a r, ordered (ai_perc a) /\ ai_merge a a = Ok r /\
  percs (ai_perc a) = [50; 60; 70; 80; 100] /\ percs (ai_perc r) = [50; 50; 60; 70; 70].
Proof.
  exists (mk_ainfo (mk_rinfo 1 200 0 1 100 50) (mk_perc 50 60 70 80 100)). eexists. split; [unfold ordered; simpl; lia|].
  split; [vm_compute; reflexivity|]. vm_compute. auto.
Qed.
Print Assumptions C45_percentiles_refuted.

(** With nanosecond values overflow is near: three billion measurements of about three seconds. *)
Theorem C45_overflow_refuted : exists a v, ri_count (ai_info a) = 3000000000 /\ ri_avg (ai_info a) = 3500000000 /\ ai_merge a v = Ub.
Proof.
  exists (mk_ainfo (mk_rinfo 1 3000000000 0 1 3500000000 3500000000) perc0), (mk_ainfo (mk_rinfo 1 1 0 1 1 1) perc0). vm_compute. auto.
Qed.
Print Assumptions C45_overflow_refuted.

Example C45_witness : exists a v r, ri_ts (ai_info a) <> 0 /\ ai_merge a v = Ok r /\
  ai_info r = mk_rinfo 7 30 5 2 50 16 /\ percs (ai_perc r) = [16; 20; 30; 40; 45].
Proof.
  exists (mk_ainfo (mk_rinfo 7 10 2 5 50 30) (mk_perc 20 30 40 45 50)), (mk_ainfo (mk_rinfo 8 20 3 2 60 10) (mk_perc 12 15 16 17 60)).
  eexists. split; [discriminate|]. split; [vm_compute; reflexivity|]. vm_compute. auto.
Qed.
Example C45_many_witness : exists r, merge_all blank [mk_ainfo (mk_rinfo 7 10 2 5 50 30) (mk_perc 20 30 40 45 50);
  mk_ainfo (mk_rinfo 8 20 3 2 60 10) (mk_perc 12 15 16 17 60); mk_ainfo (mk_rinfo 9 1 0 4 4 4) (mk_perc 4 4 4 4 4)] = Ok r /\
  ri_count (ai_info r) = 31 /\ ri_min (ai_info r) = 2.
Proof. eexists. split; [vm_compute; reflexivity|]. vm_compute. auto. Qed.
