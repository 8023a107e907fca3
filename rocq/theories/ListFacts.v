(** General list lemmas. *)
From Coq Require Import ZArith List Bool Permutation Lia Arith.
From Verif Require Import Base ModelReducer.
Import ListNotations.

Lemma set_nth_length {A} i (x : A) l : length (set_nth i x l) = length l.
Proof. revert i; induction l; destruct i; simpl; auto. Qed.

Lemma set_nth_split {A} i (x : A) l : i < length l ->
  exists a y b, l = a ++ y :: b /\ length a = i /\ set_nth i x l = a ++ x :: b.
Proof.
  revert i; induction l as [|z l IH]; intros i H; simpl in H; [lia|].
  destruct i.
  - exists [], z, l. auto.
  - destruct (IH i) as (a & y & b & E & Ha & Hs); [lia|].
    exists (z :: a), y, b. simpl. rewrite Hs. subst. auto.
Qed.

Lemma set_nth_app {A} (a : list A) x y b : set_nth (length a) x (a ++ y :: b) = a ++ x :: b.
Proof. induction a; simpl; congruence. Qed.

Lemma set_nth_app' {A} i (a : list A) x y b : i = length a -> set_nth i x (a ++ y :: b) = a ++ x :: b.
Proof. intros ->. apply set_nth_app. Qed.

Lemma nth_error_app_mid {A} (a : list A) x b i : i = length a -> nth_error (a ++ x :: b) i = Some x.
Proof. intros ->. rewrite nth_error_app2, Nat.sub_diag by lia. reflexivity. Qed.

Lemma nth_error_set_nth_eq {A} i (x : A) l : i < length l -> nth_error (set_nth i x l) i = Some x.
Proof.
  intros H. destruct (set_nth_split i x l H) as (a & y & b & E & Ha & ->).
  now apply nth_error_app_mid.
Qed.

Lemma nth_error_set_nth_neq {A} i j (x : A) l : i <> j -> nth_error (set_nth i x l) j = nth_error l j.
Proof.
  revert i j; induction l; intros [|i] [|j] H; simpl; auto; try congruence.
Qed.

Lemma upd_last_app f d x : upd_last f (d ++ [x]) = d ++ [f x].
Proof.
  induction d as [|y d IH]; simpl; auto.
  rewrite IH. destruct (d ++ [x]) eqn:E; auto.
  destruct d; discriminate.
Qed.

Lemma back_app d x : back (d ++ [x]) = x.
Proof. apply last_last. Qed.

Lemma upd_last_length f d : length (upd_last f d) = length d.
Proof.
  induction d as [|x d IH]; simpl; auto. destruct d; auto. simpl in *. now rewrite IH.
Qed.

Lemma list_snoc {A} (l : list A) : l = [] \/ exists a x, l = a ++ [x].
Proof. induction l using rev_ind; eauto. Qed.

Lemma perm_count (l m : list Z) :
  (forall z, count_occ Z.eq_dec l z = count_occ Z.eq_dec m z) -> Permutation l m.
Proof. intros H. now apply (Permutation_count_occ Z.eq_dec). Qed.

Lemma count_perm (l m : list Z) : Permutation l m ->
  forall z, count_occ Z.eq_dec l z = count_occ Z.eq_dec m z.
Proof. intros H. now apply (Permutation_count_occ Z.eq_dec). Qed.

Lemma count_split (l : list Z) k z :
  count_occ Z.eq_dec l z = count_occ Z.eq_dec (firstn k l) z + count_occ Z.eq_dec (skipn k l) z.
Proof. rewrite <- count_occ_app. now rewrite firstn_skipn. Qed.

Ltac perm_solve :=
  apply perm_count; let z := fresh "z" in intros z;
  repeat match goal with
  | H : Permutation _ _ |- _ => apply count_perm with (z := z) in H
  end;
  repeat (rewrite ?count_occ_app in *; simpl count_occ in * );
  repeat match goal with
  | |- context [Z.eq_dec ?a ?b] => destruct (Z.eq_dec a b)
  | H : context [Z.eq_dec ?a ?b] |- _ => destruct (Z.eq_dec a b)
  end;
  lia.

Lemma concat_snoc {A} (d : list (list A)) x : concat (d ++ [x]) = concat d ++ x.
Proof. rewrite concat_app. simpl. now rewrite app_nil_r. Qed.

Lemma concat_length_const {A} (d : list (list A)) n :
  Forall (fun v => length v = n) d -> length (concat d) = length d * n.
Proof. induction 1; simpl; auto. rewrite app_length. lia. Qed.
