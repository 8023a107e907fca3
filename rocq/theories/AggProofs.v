(** Percentiles and thinning of delivered records. *)
From Coq Require Import ZArith List Bool Arith Permutation Lia Sorted.
From Verif Require Import Base SortFacts ModelTypes ModelReducer SpecReducer ModelSeparator SpecSeparator
  ModelAggregator SpecAggregator.
Import ListNotations.
Local Open Scope Z_scope.

(** * Percentiles *)
Definition part (p : nat) (d : list Z) : Prop := forall x y, In x (firstn p d) -> In y (skipn p d) -> x <= y.

Lemma part_0 d : part 0 d.
Proof. intros x y H. destruct H. Qed.

Lemma filter_length_le {A} (f : A -> bool) l : (length (filter f l) <= length l)%nat.
Proof. induction l; simpl; auto. destruct (f a); simpl; lia. Qed.
Lemma filter_length_perm {A} (f : A -> bool) l m : Permutation l m -> length (filter f l) = length (filter f m).
Proof. induction 1; simpl; auto; try congruence; repeat (destruct (f _); simpl; auto); congruence. Qed.
Lemma filter_all {A} (f : A -> bool) l : Forall (fun x => f x = true) l -> filter f l = l.
Proof. induction 1; simpl; auto. rewrite H. congruence. Qed.
Lemma filter_none {A} (f : A -> bool) l : Forall (fun x => f x = false) l -> filter f l = [].
Proof. induction 1; simpl; auto. now rewrite H. Qed.

Lemma skipn_skipn {A} (m n : nat) (l : list A) : skipn m (skipn n l) = skipn (m + n) l.
Proof.
  revert l. induction n as [|n IH]; intros l; [now rewrite Nat.add_0_r|].
  rewrite Nat.add_succ_r. destruct l; [now rewrite !skipn_nil|]. simpl. apply IH.
Qed.

Section NE.
  Variable ne : nat -> list Z -> list Z.
  Hypothesis Hne : nth_element_ok ne.

  Lemma nth_step perc off p d : let nth := (length d * perc / 100)%nat in
    (off <= p <= nth)%nat -> (nth < length d)%nat -> part p d ->
    exists v d' a b, g_nth_ ne perc off d = Ok (v, (nth - off)%nat, d') /\ Permutation d d' /\
      d' = a ++ v :: b /\ length a = nth /\ Forall (fun y => y <= v) a /\ Forall (fun y => v <= y) b.
  Proof.
    intros nth [H1 H2] H3 P. unfold g_nth_. fold nth.
    rewrite (proj2 (Nat.ltb_ge nth off)) by lia.
    destruct (Hne (nth - off)%nat (skipn off d)) as (Pm & a & v & b & E & La & Fa & Fb).
    { rewrite skipn_length. lia. }
    rewrite E in *. clear E.
    assert (LF : length (firstn off d) = off) by (rewrite firstn_length; lia).
    assert (FO : Forall (fun y => y <= v) (firstn off d)).
    { rewrite Forall_forall. intros x Hx. destruct (Z.le_gt_cases x v) as [|L]; auto. exfalso.
      assert (Lb : length b = (length d - nth - 1)%nat).
      { pose proof (Permutation_length Pm) as LP. rewrite skipn_length, app_length in LP. simpl in LP. lia. }
      assert (Hx' : In x (firstn p d)).
      { replace p with (off + (p - off))%nat by lia. clear - Hx LF. 
        rewrite <- (firstn_skipn off d) at 1. rewrite firstn_app, LF.
        replace (off + (p - off) - off)%nat with (p - off)%nat by lia. apply in_or_app. left.
        rewrite firstn_all2; [auto|lia]. }
      assert (C1 : (length d - p <= length (filter (fun y => (v <? y)%Z) (skipn off d)))%nat).
      { replace (skipn off d) with (firstn (p - off) (skipn off d) ++ skipn p d).
        - rewrite filter_app, app_length. rewrite (filter_all _ (skipn p d)).
          + rewrite skipn_length. lia.
          + rewrite Forall_forall. intros y Hy. apply Z.ltb_lt. specialize (P x y Hx' Hy). lia.
        - rewrite <- (firstn_skipn (p - off) (skipn off d)) at 2. f_equal. rewrite skipn_skipn. f_equal. lia. }
      rewrite (filter_length_perm _ _ _ Pm), filter_app in C1. simpl in C1. rewrite Z.ltb_irrefl in C1.
      rewrite (filter_none _ a) in C1.
      - simpl in C1. pose proof (filter_length_le (fun y => (v <? y)%Z) b). lia.
      - eapply Forall_impl; [|exact Fa]. simpl. intros y Hy. apply Z.ltb_ge. lia. }
    replace (firstn off d ++ a ++ v :: b) with ((firstn off d ++ a) ++ v :: b) by (now rewrite <- app_assoc).
    rewrite nth_error_app2 by (rewrite app_length; lia).
    replace (nth - length (firstn off d ++ a))%nat with O by (rewrite app_length; lia). simpl.
    exists v, ((firstn off d ++ a) ++ v :: b), (firstn off d ++ a), b. split; auto. split.
    - rewrite <- app_assoc. rewrite <- Pm. now rewrite firstn_skipn.
    - split; auto. split; [rewrite app_length; lia|]. split; auto. apply Forall_app. auto.
  Qed.

  Lemma split_part a v b p : length a = p -> Forall (fun y => y <= v) a -> Forall (fun y => v <= y) b -> part p (a ++ v :: b).
  Proof.
    intros <- Fa Fb x y Hx Hy. rewrite firstn_app, firstn_all, Nat.sub_diag in Hx. simpl in Hx. rewrite app_nil_r in Hx.
    rewrite skipn_app, skipn_all, Nat.sub_diag in Hy. simpl in Hy. rewrite Forall_forall in *.
    specialize (Fa x Hx). destruct Hy as [<-|Hy]; auto. specialize (Fb y Hy). lia.
  Qed.

  Lemma perc_le n p q : (p <= q)%nat -> (n * p / 100 <= n * q / 100)%nat.
  Proof. intros. apply Nat.div_le_mono; [lia|]. nia. Qed.
  Lemma perc_lt n p : (0 < n)%nat -> (p < 100)%nat -> (n * p / 100 < n)%nat.
  Proof. intros. apply Nat.div_lt_upper_bound; nia. Qed.

  (** aggregate2_ never reads outside the data and computes the order statistics. *)
  Lemma aggregate2_spec a : exists d, g_aggregate2_ ne a = Ok d /\ ad_info d = ad_info a /\
    Permutation (ad_data a) (ad_data d) /\ (ad_data a = [] -> d = a) /\
    (ad_data a <> [] -> percentiles_of (ad_data a) (ad_perc d) /\
       p99 (ad_perc d) <= p100 (ad_perc d) /\ In (p100 (ad_perc d)) (ad_data a) /\
       ((length (ad_data a) <= 200)%nat -> is_max (p100 (ad_perc d)) (ad_data a))).
  Proof.
    unfold g_aggregate2_. destruct (ad_data a) as [|x0 t0] eqn:Ed.
    { exists a. rewrite Ed. simpl. repeat split; auto; congruence. }
    set (d0 := x0 :: t0). change (length d0) with (S (length t0)) at 1. cbv iota.
    assert (L0 : (0 < length d0)%nat) by (simpl; lia). clearbody d0. set (n := length d0) in *.
    set (n1 := (n * 50 / 100)%nat). set (n2 := (n * 80 / 100)%nat).
    set (n3 := (n * 95 / 100)%nat). set (n4 := (n * 99 / 100)%nat).
    assert (I12 : (n1 <= n2)%nat) by (apply perc_le; lia). assert (I23 : (n2 <= n3)%nat) by (apply perc_le; lia).
    assert (I34 : (n3 <= n4)%nat) by (apply perc_le; lia).
    assert (B4 : (n4 < n)%nat) by (apply perc_lt; lia).
    destruct (nth_step 50 0 0 d0) as (v1 & d1 & a1 & b1 & E1 & P1 & S1 & La1 & Fa1 & Fb1); fold n n1; auto using part_0; [lia|lia|].
    fold n n1 in E1, La1. rewrite E1. cbn [bind]. assert (N1 : length d1 = n) by (now rewrite <- P1).
    rewrite Nat.sub_0_r.
    assert (Q1 : part n1 d1) by (rewrite S1; now apply split_part).
    destruct (nth_step 80 n1 n1 d1) as (v2 & d2 & a2 & b2 & E2 & P2 & S2 & La2 & Fa2 & Fb2); rewrite ?N1; fold n2; auto; [lia|].
    rewrite N1 in E2, La2. fold n2 in E2, La2. rewrite E2. cbn [bind]. assert (N2 : length d2 = n) by (now rewrite <- P2).
    assert (Q2 : part n2 d2) by (rewrite S2; now apply split_part).
    destruct (nth_step 95 (n2 - n1) n2 d2) as (v3 & d3 & a3 & b3 & E3 & P3 & S3 & La3 & Fa3 & Fb3); rewrite ?N2; fold n3; auto; [lia|lia|].
    rewrite N2 in E3, La3. fold n3 in E3, La3. rewrite E3. cbn [bind]. assert (N3 : length d3 = n) by (now rewrite <- P3).
    assert (Q3 : part n3 d3) by (rewrite S3; now apply split_part).
    destruct (nth_step 99 (n3 - (n2 - n1)) n3 d3) as (v4 & d4 & a4 & b4 & E4 & P4 & S4 & La4 & Fa4 & Fb4); rewrite ?N3; fold n4; auto; [lia|].
    rewrite N3 in E4, La4. fold n4 in E4, La4. rewrite E4. cbn [bind]. assert (N4 : length d4 = n) by (now rewrite <- P4).
    destruct (nth_error d4 (n - 1)) as [v5|] eqn:E5.
    2: { apply nth_error_None in E5. lia. }
    assert (Lb4 : length b4 = (n - 1 - n4)%nat) by (rewrite S4, app_length in N4; simpl in N4; lia).
    exists (mk_adata (ad_info a) (mk_perc v1 v2 v3 v4 v5) d4). cbn [ad_info ad_data ad_perc p99 p100].
    assert (P04 : Permutation d0 d4) by (now rewrite P1, P2, P3).
    split; auto. split; auto. split; auto. split.
    { intros H. exfalso. unfold n in L0. rewrite H in L0. simpl in L0. lia. }
    intros _. split; [|split; [|split]].
    - unfold percentiles_of. fold n. cbn [p50 p80 p95 p99]. fold n1 n2 n3 n4. repeat split.
      + exists a1, b1. rewrite <- S1. auto.
      + exists a2, b2. rewrite <- S2. rewrite P1. auto.
      + exists a3, b3. rewrite <- S3. rewrite P1, P2. auto.
      + exists a4, b4. rewrite <- S4. auto.
    - rewrite S4 in E5. destruct (Nat.eq_dec n4 (n - 1)) as [Eq|Ne].
      + rewrite nth_error_app2 in E5 by lia. replace (n - 1 - length a4)%nat with O in E5 by lia. injection E5 as ->. lia.
      + rewrite nth_error_app2 in E5 by lia. replace (n - 1 - length a4)%nat with (S (n - 2 - n4)) in E5 by lia.
        simpl in E5. apply nth_error_In in E5. rewrite Forall_forall in Fb4. now apply Fb4.
    - apply nth_error_In in E5. eapply Permutation_in; [symmetry; exact P04|exact E5].
    - intros Hn. split; [apply nth_error_In in E5; eapply Permutation_in; [symmetry; exact P04|exact E5]|].
      assert (F : Forall (fun x => x <= v5) d4).
      2: { rewrite Forall_forall in *. intros x Hx. apply F. eapply Permutation_in; eauto. }
      assert (C : (n - 1 - n4 <= 1)%nat).
      { unfold n4. pose proof (Nat.div_mod (n * 99) 100 ltac:(lia)). pose proof (Nat.mod_upper_bound (n * 99) 100 ltac:(lia)). lia. }
      rewrite S4 in *. destruct b4 as [|z [|? ?]]; [| |simpl in Lb4; lia].
      + simpl in Lb4. rewrite nth_error_app2 in E5 by lia. replace (n - 1 - length a4)%nat with O in E5 by lia.
        injection E5 as ->. apply Forall_app. split; auto. constructor; auto. lia.
      + simpl in Lb4. rewrite nth_error_app2 in E5 by lia. replace (n - 1 - length a4)%nat with 1%nat in E5 by lia.
        simpl in E5. injection E5 as ->. assert (v4 <= v5) by (exact (Forall_inv Fb4)).
        apply Forall_app. split; [eapply Forall_impl; [|exact Fa4]; simpl; intros; lia|].
        constructor; [lia|]. constructor; [lia|constructor].
  Qed.

  (** * Thinning *)
  Lemma keep_subseq keep d : forall i, subseq (keep_from keep i d) d.
  Proof.
    induction d as [|x d IH]; intros i; simpl; [constructor|]. destruct (keep i); constructor; auto.
  Qed.
  Lemma subseq_refl {A} (l : list A) : subseq l l.
  Proof. induction l; constructor; auto. Qed.
  Lemma subseq_sub {A} (l m : list A) : subseq l m -> submultiset l m.
  Proof.
    induction 1 as [|x l m H [r P]|x l m H [r P]].
    - exists []. auto.
    - exists r. simpl. auto.
    - exists (x :: r). rewrite <- Permutation_middle. auto.
  Qed.
  Lemma reduce_subseq out d : subseq (g_reduce_ out d) d.
  Proof.
    unfold g_reduce_. destruct (_ || _); [apply subseq_refl|]. destruct (length d <? out * 2)%nat.
    - destruct (_ && _); [apply keep_subseq|apply subseq_refl].
    - destruct (_ && _); [apply keep_subseq|apply subseq_refl].
  Qed.

  (** Number of multiples of [step] among the positions. *)
  Lemma keep_length step d : (0 < step)%nat -> forall i,
    (length (keep_from (fun i => (i mod step =? 0)%nat) i d) + (i + step - 1) / step = (i + length d + step - 1) / step)%nat.
  Proof.
    intros Hs. induction d as [|x d IH]; intros i; simpl.
    - f_equal. lia.
    - specialize (IH (S i)). replace (i + S (length d) + step - 1)%nat with (S i + length d + step - 1)%nat by lia.
      rewrite <- IH. replace (S i + step - 1)%nat with (i + 1 * step)%nat by lia.
      rewrite Nat.div_add by lia.
      pose proof (Nat.div_mod i step ltac:(lia)) as D. pose proof (Nat.mod_upper_bound i step ltac:(lia)).
      destruct (Nat.eqb_spec (i mod step) 0) as [E|E]; simpl.
      + assert (((i + step - 1) / step)%nat = (i / step)%nat); [|lia].
        symmetry. apply (Nat.div_unique _ _ _ (step - 1)); lia.
      + assert (((i + step - 1) / step)%nat = (i / step + 1)%nat); [|lia].
        symmetry. apply (Nat.div_unique _ _ _ (i mod step - 1)); nia.
  Qed.
  Lemma keep_length0 step d : (0 < step)%nat ->
    length (keep_from (fun i => (i mod step =? 0)%nat) 0 d) = ((length d + step - 1) / step)%nat.
  Proof.
    intros Hs. pose proof (keep_length step d Hs 0) as K. simpl in K.
    rewrite (Nat.div_small (step - 1) step) in K by lia. lia.
  Qed.
  Lemma keep_neg keep d : forall i,
    (length (keep_from (fun i => negb (keep i)) i d) + length (keep_from keep i d) = length d)%nat.
  Proof. induction d as [|x d IH]; intros i; simpl; auto. specialize (IH (S i)). destruct (keep i); simpl; lia. Qed.

  Lemma reduce_length out d : let n := length d in let m := length (g_reduce_ out d) in
    ((out = 0 \/ n <= out) -> g_reduce_ out d = d)%nat /\
    (out <> 0 -> out < n -> n < 2 * out -> 1 <= m <= out /\ n / 2 <= m)%nat /\
    (out <> 0 -> 2 * out <= n -> out <= m <= out + out / 2)%nat.
  Proof.
    cbv zeta. unfold g_reduce_. set (n := length d). split; [|split].
    - intros H. replace ((out =? 0) || (n <=? out))%nat%bool with true; auto. symmetry.
      apply orb_true_iff. destruct H; [left; now apply Nat.eqb_eq|right; now apply Nat.leb_le].
    - intros H0 H1 H2. rewrite (proj2 (Nat.eqb_neq out 0)) by auto. rewrite (proj2 (Nat.leb_gt n out)) by lia. simpl orb. cbv iota.
      rewrite (proj2 (Nat.ltb_lt n (out * 2))) by lia.
      set (step := (n / (n - out))%nat).
      assert (S2 : (2 <= step)%nat) by (apply Nat.div_le_lower_bound; lia).
      set (kept := keep_from (fun i => negb (i mod step =? 0)%nat) 0 d).
      assert (LK : (length kept + (n + step - 1) / step = n)%nat).
      { unfold kept, n. rewrite <- (keep_length0 step d) by lia. apply keep_neg. }
      assert (A : (n - out <= (n + step - 1) / step)%nat).
      { apply Nat.div_le_lower_bound; [lia|]. assert (step * (n - out) <= n)%nat; [|lia].
        unfold step. rewrite Nat.mul_comm. apply Nat.mul_div_le. lia. }
      assert (B : ((n + step - 1) / step <= n - n / 2)%nat).
      { assert ((n + step - 1) / step < n - n / 2 + 1)%nat; [|lia]. apply Nat.div_lt_upper_bound; [lia|].
        pose proof (Nat.div_mod n 2 ltac:(lia)). pose proof (Nat.mod_upper_bound n 2 ltac:(lia)). nia. }
      assert (C : (1 <= n / 2)%nat) by (apply Nat.div_le_lower_bound; lia).
      rewrite (proj2 (Nat.ltb_lt 0 (length kept))) by lia. rewrite (proj2 (Nat.ltb_lt (length kept) n)) by lia. cbn [andb]. pose proof (Nat.div_mod n 2 ltac:(lia)). lia.
    - intros H0 H1. rewrite (proj2 (Nat.eqb_neq out 0)) by auto. rewrite (proj2 (Nat.leb_gt n out)) by lia. simpl orb. cbv iota.
      rewrite (proj2 (Nat.ltb_ge n (out * 2))) by lia.
      set (step := (n / out)%nat).
      assert (S2 : (2 <= step)%nat) by (apply Nat.div_le_lower_bound; lia).
      set (kept := keep_from (fun i => (i mod step =? 0)%nat) 0 d).
      assert (LK : length kept = ((n + step - 1) / step)%nat) by (apply keep_length0; lia).
      pose proof (Nat.div_mod n out ltac:(lia)) as D. fold step in D.
      pose proof (Nat.mod_upper_bound n out ltac:(lia)) as M. set (r := (n mod out)%nat) in *.
      assert (A : (out <= (n + step - 1) / step)%nat) by (apply Nat.div_le_lower_bound; nia).
      pose proof (Nat.div_mod out 2 ltac:(lia)) as D2. pose proof (Nat.mod_upper_bound out 2 ltac:(lia)) as M2.
      assert (B : ((n + step - 1) / step <= out + out / 2)%nat).
      { assert ((n + step - 1) / step < out + out / 2 + 1)%nat; [|lia]. apply Nat.div_lt_upper_bound; [lia|].
        assert (r <= step * (out / 2))%nat; [|nia]. nia. }
      assert (C : (out + out / 2 < n)%nat) by lia.
      rewrite (proj2 (Nat.ltb_lt 0 (length kept))) by lia. rewrite (proj2 (Nat.ltb_lt (length kept) n)) by lia. cbn [andb]. pose proof (Nat.div_mod n 2 ltac:(lia)). lia.
  Qed.

  Lemma finish_spec out a : exists d, g_finish ne out a = Ok d /\ finished out a d.
  Proof.
    unfold g_finish. destruct (aggregate2_spec a) as (d & E & Hi & P & Hn & Hp). rewrite E. cbn [bind].
    eexists. split; [reflexivity|]. unfold finished. cbn [ad_info ad_data ad_perc].
    pose proof (reduce_length out (ad_data d)) as (R1 & R2 & R3).
    pose proof (Permutation_length P) as LP.
    split; auto. split; [exists (ad_data d); split; [now symmetry|apply reduce_subseq]|].
    split.
    { intros H. specialize (Hn H). subst d. rewrite H. unfold g_reduce_. simpl. rewrite orb_true_r.
      destruct a; simpl in *. now subst. }
    split.
    { intros H. destruct (Hp H) as (H' & H1 & H2 & H3). split; auto. split; auto. }
    unfold thinned_size. rewrite LP. split; [|split].
    - intros H. now rewrite R1.
    - intros H1 H2 H3. specialize (R2 H1 H2 H3). tauto.
    - exact R3.
  Qed.
  Lemma finished_sub out a d : finished out a d -> submultiset (ad_data d) (ad_data a).
  Proof.
    intros (_ & (v & P & S) & _). destruct (subseq_sub _ _ S) as [r Pr]. exists r. now rewrite <- P.
  Qed.

  Lemma finish_fun out a d : g_finish ne out a = Ok d -> finished out a d.
  Proof. intros E. destruct (finish_spec out a) as (d' & E' & F). congruence. Qed.

  Lemma finish_all_spec out l : exists ds, g_finish_all ne out l = Ok ds /\ Forall2 (finished out) l ds.
  Proof.
    induction l as [|a l (ds & E & F)]; simpl; [eauto|].
    destruct (finish_spec out a) as (d & E1 & F1). rewrite E1, E. cbn [bind]. eauto.
  Qed.
  Lemma finish_all_fun out l ds : g_finish_all ne out l = Ok ds -> Forall2 (finished out) l ds.
  Proof. intros E. destruct (finish_all_spec out l) as (d' & E' & F). congruence. Qed.
End NE.
