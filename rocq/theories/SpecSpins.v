(** What can be said of several spinlocks in the terms of their callers. *)
From Coq Require Import ZArith List Bool Arith.
From Verif Require Import Base ModelSpins.
Import ListNotations.

(** In state [s] thread [t] holds lock [k]: its lock() or try_lock() succeeded and it has not unlocked since. *)
Definition holds_k (s : spins) (t k : nat) : Prop := exists p, nth_error (n_thr s) t = Some p /\ In k (n_held p).
Definition free_k (s : spins) (k : nat) : Prop := forall t, ~ holds_k s t k.
Definition waits_k (s : spins) (t k : nat) : Prop := exists p, nth_error (n_thr s) t = Some p /\ n_pc p = NSpin k.

(** A program that moves locks only while they are in nobody's hands: the source when it is read, the target when it is
    written. *)
Fixpoint calm (acts : list (nat * nact)) (s : spins) : Prop :=
  match acts with
  | [] => True
  | (t, a) :: rest =>
      match a with
      | NLoad _ j => free_k s j
      | NStore => forall p i v, nth_error (n_thr s) t = Some p -> n_pc p = NMoving i v -> free_k s i
      | _ => True
      end /\ match n_step t a s with Some (_, s1) => calm rest s1 | None => True end
  end.
(** A program without moves. *)
Definition unmoved (acts : list (nat * nact)) : Prop := forall t a, In (t, a) acts -> match a with NLoad _ _ | NStore => False | _ => True end.
(** A program that takes its locks in rising rank: whoever calls lock() of k holds only locks of a lower rank.  Nothing is
    asked of try_lock(). *)
Fixpoint rising (rank : nat -> nat) (acts : list (nat * nact)) (s : spins) : Prop :=
  match acts with
  | [] => True
  | (t, a) :: rest =>
      match a with NLock k => forall h, holds_k s t h -> rank h < rank k | _ => True end
      /\ match n_step t a s with Some (_, s1) => rising rank rest s1 | None => True end
  end.
