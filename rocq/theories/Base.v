(** Outcome monad, machine integers, sorting, and the contract of std::nth_element. *)
From Coq Require Import ZArith List Bool Permutation Sorted Lia.
Import ListNotations.
Local Open Scope Z_scope.

(** Result of a C++ call: a value, undefined behaviour, or a thrown exception. *)
Inductive outcome (A : Type) : Type :=
| Ok (a : A)
| Ub
| Exn.
Arguments Ok {A} a.
Arguments Ub {A}.
Arguments Exn {A}.

Definition bind {A B} (x : outcome A) (f : A -> outcome B) : outcome B :=
  match x with
  | Ok a => f a
  | Ub => Ub
  | Exn => Exn
  end.

Notation "x <- e ;; f" := (bind e (fun x => f))
  (at level 61, e at next level, right associativity).
Notation "' p <- e ;; f" := (bind e (fun z => let 'p := z in f))
  (at level 61, p pattern, e at next level, right associativity).

(** Unsigned 64-bit arithmetic: size_type, wrtstat/aggregator/api/types.hpp. *)
Definition two64 : Z := 18446744073709551616.
Definition u64 (z : Z) : Z := z mod two64.
Arguments u64 z : simpl never.

(** Signed 64-bit arithmetic: value_type and time_type (std::time_t), wrtstat/aggregator/api/types.hpp. *)
Definition i64_min : Z := -9223372036854775808.
Definition i64_max : Z := 9223372036854775807.
Definition in_i64 (z : Z) : bool := (i64_min <=? z) && (z <=? i64_max).
(** Signed overflow is undefined behaviour. *)
Definition chk (z : Z) : outcome Z := if in_i64 z then Ok z else Ub.
Arguments chk z : simpl never.

(** std::sort on a vector of integers: the result is determined by the input, any sorting function models it. *)
Fixpoint insert (x : Z) (l : list Z) : list Z :=
  match l with
  | [] => [x]
  | y :: t => if x <=? y then x :: l else y :: insert x t
  end.
Fixpoint isort (l : list Z) : list Z :=
  match l with
  | [] => []
  | x :: t => insert x (isort t)
  end.

(** Contract of std::nth_element on a range holding [l], with [nth = first + k], k < length:
    the range is permuted, everything before position k is <= the element at k, everything after is >=. *)
Definition nth_element_ok (ne : nat -> list Z -> list Z) : Prop :=
  forall k l, (k < length l)%nat ->
    Permutation l (ne k l) /\
    exists a x b, ne k l = a ++ x :: b /\ length a = k /\
      Forall (fun y => y <= x) a /\ Forall (fun y => x <= y) b.

(** [x] is the element of rank [k] (counting from 0) of the multiset [l]. *)
Definition rank_is (l : list Z) (k : nat) (x : Z) : Prop :=
  exists a b, Permutation l (a ++ x :: b) /\ length a = k /\
    Forall (fun y => y <= x) a /\ Forall (fun y => x <= y) b.

(** [l] is a sub-multiset of [m]. *)
Definition submultiset {A} (l m : list A) : Prop := exists r, Permutation (l ++ r) m.
