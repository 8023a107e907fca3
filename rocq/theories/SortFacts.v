(** Facts about sorting, order statistics and the nth_element contract. *)
From Coq Require Import ZArith List Bool Permutation Sorted Lia Arith.
From Verif Require Import Base.
Import ListNotations.
Local Open Scope Z_scope.

Lemma insert_perm x l : Permutation (x :: l) (insert x l).
Proof.
  induction l as [|y t IH]; simpl; [reflexivity|].
  destruct (x <=? y); [reflexivity|].
  rewrite perm_swap. constructor. exact IH.
Qed.

Lemma isort_perm l : Permutation l (isort l).
Proof.
  induction l as [|x t IH]; simpl; [reflexivity|].
  rewrite <- insert_perm. constructor. exact IH.
Qed.

Lemma isort_length l : length (isort l) = length l.
Proof. symmetry. apply Permutation_length, isort_perm. Qed.

Lemma insert_in x l z : In z (insert x l) <-> z = x \/ In z l.
Proof.
  split.
  - intros H. apply (Permutation_in _ (Permutation_sym (insert_perm x l))) in H. simpl in H. intuition.
  - intros H. apply (Permutation_in _ (insert_perm x l)). simpl. intuition.
Qed.

Lemma insert_sorted x l : StronglySorted Z.le l -> StronglySorted Z.le (insert x l).
Proof.
  induction l as [|y t IH]; intros H; simpl.
  - repeat constructor.
  - inversion H as [|? ? H1 H2]; subst. destruct (Z.leb_spec x y).
    + constructor; [exact H|]. constructor; [lia|].
      eapply Forall_impl; [|exact H2]. simpl. intros; lia.
    + constructor; [auto|]. apply Forall_forall. intros z Hz.
      apply insert_in in Hz. destruct Hz as [->|Hz]; [lia|].
      rewrite Forall_forall in H2. auto.
Qed.

Lemma isort_sorted l : StronglySorted Z.le (isort l).
Proof. induction l; simpl; [constructor|]. now apply insert_sorted. Qed.

Lemma sorted_perm_eq l m :
  StronglySorted Z.le l -> StronglySorted Z.le m -> Permutation l m -> l = m.
Proof.
  revert m; induction l as [|x l IH]; intros m Hl Hm P.
  - apply Permutation_nil in P. now subst.
  - destruct m as [|y m]; [apply Permutation_sym, Permutation_nil in P; discriminate|].
    inversion Hl as [|? ? Hl1 Hl2]; subst. inversion Hm as [|? ? Hm1 Hm2]; subst.
    assert (x = y).
    { assert (A: In x (y :: m)) by (eapply Permutation_in; [exact P|now left]).
      assert (B: In y (x :: l)) by (eapply Permutation_in; [exact (Permutation_sym P)|now left]).
      rewrite Forall_forall in Hl2, Hm2. destruct A as [A|A], B as [B|B]; try congruence.
      apply Hl2 in B. apply Hm2 in A. lia. }
    subst y. f_equal. apply IH; auto. eapply Permutation_cons_inv; eauto.
Qed.

Lemma isort_perm_eq l m : Permutation l m -> isort l = isort m.
Proof.
  intros P. apply sorted_perm_eq; auto using isort_sorted.
  rewrite <- isort_perm, <- isort_perm. exact P.
Qed.

Lemma isort_id l : StronglySorted Z.le l -> isort l = l.
Proof. intros H. apply sorted_perm_eq; auto using isort_sorted. symmetry; apply isort_perm. Qed.

Lemma isort_idem l : isort (isort l) = isort l.
Proof. apply isort_id, isort_sorted. Qed.

Lemma ssorted_app_intro l m :
  StronglySorted Z.le l -> StronglySorted Z.le m ->
  (forall x y, In x l -> In y m -> x <= y) -> StronglySorted Z.le (l ++ m).
Proof.
  induction l as [|x l IH]; intros Hl Hm H; simpl; auto.
  inversion Hl as [|? ? Hl1 Hl2]; subst. constructor.
  - apply IH; auto. intros; apply H; simpl; auto.
  - apply Forall_app; split; auto. apply Forall_forall. intros; apply H; simpl; auto.
Qed.

Lemma ssorted_app_inv l m :
  StronglySorted Z.le (l ++ m) ->
  StronglySorted Z.le l /\ StronglySorted Z.le m /\ (forall x y, In x l -> In y m -> x <= y).
Proof.
  induction l as [|x l IH]; simpl; intros H.
  - repeat split; auto; [constructor|intros ? ? []].
  - inversion H as [|? ? H1 H2]; subst. destruct (IH H1) as (A & B & C).
    apply Forall_app in H2 as [H2 H3]. repeat split; auto.
    + constructor; auto.
    + intros a b [->|Ha] Hb; auto. rewrite Forall_forall in H3; auto.
Qed.

Lemma isort_app l m :
  (forall x y, In x l -> In y m -> x <= y) -> isort (l ++ m) = isort l ++ isort m.
Proof.
  intros H. apply sorted_perm_eq.
  - apply isort_sorted.
  - apply ssorted_app_intro; auto using isort_sorted.
    intros x y Hx Hy. apply H; eapply Permutation_in; try eassumption; symmetry; apply isort_perm.
  - rewrite <- isort_perm. apply Permutation_app; apply isort_perm.
Qed.

(** Order statistics: the relation [rank_is] and the function "index the sorted list" agree. *)
Lemma rank_is_nth_error l k x : rank_is l k x <-> nth_error (isort l) k = Some x.
Proof.
  split.
  - intros (a & b & P & Hk & Ha & Hb).
    rewrite (isort_perm_eq _ _ P).
    assert (E: isort (a ++ x :: b) = isort a ++ x :: isort b).
    { rewrite isort_app.
      - f_equal. change (isort (x :: b)) with (isort ([x] ++ b)). rewrite isort_app.
        + reflexivity.
        + intros u v [<-|[]] Hv. rewrite Forall_forall in Hb; auto.
      - rewrite Forall_forall in Ha, Hb. intros u v Hu [<-|Hv]; auto.
        specialize (Ha _ Hu). specialize (Hb _ Hv). lia. }
    rewrite E, nth_error_app2; rewrite isort_length; [|lia].
    now replace (k - length a)%nat with 0%nat by lia.
  - intros H. apply nth_error_split in H as (a & b & E & Hk).
    exists a, b. pose proof (isort_sorted l) as Hs. rewrite E in Hs.
    apply ssorted_app_inv in Hs as (_ & Hs & Hab). inversion Hs; subst.
    repeat split; auto.
    + rewrite <- E. apply isort_perm.
    + apply Forall_forall. intros; apply Hab; simpl; auto.
Qed.

Lemma rank_is_fun l k x y : rank_is l k x -> rank_is l k y -> x = y.
Proof. rewrite !rank_is_nth_error. congruence. Qed.

Lemma rank_is_exists l k : (k < length l)%nat -> exists x, rank_is l k x.
Proof.
  intros H. destruct (nth_error (isort l) k) as [x|] eqn:E.
  - exists x. now apply rank_is_nth_error.
  - apply nth_error_None in E. rewrite isort_length in E. lia.
Qed.

Lemma rank_is_perm l m k x : Permutation l m -> rank_is l k x -> rank_is m k x.
Proof. intros P. rewrite !rank_is_nth_error. now rewrite (isort_perm_eq _ _ P). Qed.

Lemma rank_is_in l k x : rank_is l k x -> In x l.
Proof.
  intros (a & b & P & _). eapply Permutation_in; [symmetry; exact P|]. apply in_or_app; simpl; auto.
Qed.

Lemma rank_is_mono l k1 k2 x y : (k1 <= k2)%nat -> rank_is l k1 x -> rank_is l k2 y -> x <= y.
Proof.
  rewrite !rank_is_nth_error. intros Hk H1 H2.
  pose proof (isort_sorted l) as Hs.
  apply nth_error_split in H2 as (a & b & E & Ha). rewrite E in *.
  destruct (Nat.eq_dec k1 k2).
  - subst k1. rewrite nth_error_app2 in H1 by lia.
    replace (k2 - length a)%nat with 0%nat in H1 by lia. simpl in H1. injection H1; lia.
  - rewrite nth_error_app1 in H1 by lia. apply nth_error_In in H1.
    apply ssorted_app_inv in Hs as (_ & _ & Hab). apply Hab; simpl; auto.
Qed.

(** Consequences of the nth_element contract. *)
Section NE.
  Variable ne : nat -> list Z -> list Z.
  Hypothesis Hne : nth_element_ok ne.

  Lemma ne_perm k l : (k < length l)%nat -> Permutation l (ne k l).
  Proof. intros H; now destruct (Hne k l H). Qed.

  Lemma ne_length k l : (k < length l)%nat -> length (ne k l) = length l.
  Proof. intros H. symmetry. apply Permutation_length, ne_perm, H. Qed.

  Lemma ne_rank k l : (k < length l)%nat ->
    exists x, nth_error (ne k l) k = Some x /\ rank_is l k x.
  Proof.
    intros H. destruct (Hne k l H) as (P & a & x & b & E & Hk & Ha & Hb).
    exists x. split.
    - rewrite E, nth_error_app2 by lia. now replace (k - length a)%nat with 0%nat by lia.
    - exists a, b. rewrite <- E. auto.
  Qed.
End NE.

(** The sort-based nth_element satisfies the contract (so the contract is satisfiable). *)
Definition ne_sort (k : nat) (l : list Z) : list Z := isort l.

Lemma ne_sort_ok : nth_element_ok ne_sort.
Proof.
  intros k l H. split; [apply isort_perm|].
  destruct (nth_error (isort l) k) as [x|] eqn:E.
  - pose proof (isort_sorted l) as Hs.
    apply nth_error_split in E as (a & b & E & Ha). exists a, x, b.
    rewrite E in Hs. apply ssorted_app_inv in Hs as (_ & Hs & Hab). inversion Hs; subst.
    repeat split; auto. apply Forall_forall. intros; apply Hab; simpl; auto.
  - apply nth_error_None in E. rewrite isort_length in E. lia.
Qed.

(** Another conforming nth_element, which leaves the two parts in reverse order. *)
Definition ne_rev (k : nat) (l : list Z) : list Z :=
  let s := isort l in rev (firstn k s) ++
    match skipn k s with [] => [] | x :: t => x :: rev t end.

Lemma ne_rev_ok : nth_element_ok ne_rev.
Proof.
  intros k l H. unfold ne_rev.
  destruct (ne_sort_ok k l H) as (P & a & x & b & E & Hk & Ha & Hb). unfold ne_sort in *.
  rewrite E, firstn_app, skipn_app. subst k.
  rewrite firstn_all, skipn_all, Nat.sub_diag. simpl. rewrite app_nil_r. split.
  - rewrite P, E. apply Permutation_app; [apply Permutation_rev|]. constructor. apply Permutation_rev.
  - exists (rev a), x, (rev b). rewrite rev_length. repeat split; auto; apply Forall_rev; auto.
Qed.

(** Sub-multisets. *)
Lemma submultiset_refl {A} (l : list A) : submultiset l l.
Proof. exists []. now rewrite app_nil_r. Qed.

Lemma submultiset_trans {A} (l m n : list A) : submultiset l m -> submultiset m n -> submultiset l n.
Proof.
  intros [r P] [s Q]. exists (r ++ s). rewrite app_assoc. rewrite P. exact Q.
Qed.

Lemma submultiset_perm_l {A} (l l' m : list A) : Permutation l l' -> submultiset l m -> submultiset l' m.
Proof. intros P [r Q]. exists r. now rewrite <- P. Qed.

Lemma submultiset_perm_r {A} (l m m' : list A) : Permutation m m' -> submultiset l m -> submultiset l m'.
Proof. intros P [r Q]. exists r. now rewrite <- P. Qed.

Lemma submultiset_app_r {A} (l m n : list A) : submultiset l m -> submultiset l (m ++ n).
Proof. intros [r P]. exists (r ++ n). rewrite app_assoc. now rewrite P. Qed.

Lemma submultiset_in {A} (l m : list A) x : submultiset l m -> In x l -> In x m.
Proof. intros [r P] H. eapply Permutation_in; [exact P|]. apply in_or_app; auto. Qed.

Lemma submultiset_length {A} (l m : list A) : submultiset l m -> (length l <= length m)%nat.
Proof. intros [r P]. apply Permutation_length in P. rewrite app_length in P. lia. Qed.
