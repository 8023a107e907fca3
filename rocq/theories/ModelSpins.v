(** wrtstat/system/spinlock.hpp: several spinlocks, spinlock_n, and moving a spinlock.  One step per operation on an atomic,
    as in ModelSpin. *)
From Coq Require Import ZArith List Bool Arith.
From Verif Require Import Base ModelReducer.
Import ListNotations.

(** Where a thread is: outside; inside lock() of lock [k] between two exchanges; inside x_i = std::move(x_j) after
    other.value was read as [v]. *)
Inductive npc := NOut | NSpin (k : nat) | NMoving (i : nat) (v : bool).
(** [n_held]: the locks whose lock() or try_lock() succeeded and for which unlock() was not called since. *)
Record nthr := mk_nthr { n_held : list nat; n_pc : npc }.
Record spins := mk_spins { n_value : list bool; n_thr : list nthr }.
(** [locks] new spinlocks (spinlock.hpp:16-17; the array of spinlock_n, spinlock.hpp:76), [threads] threads *)
Definition n_new (locks threads : nat) : spins := mk_spins (repeat false locks) (repeat (mk_nthr [] NOut) threads).

(** spinlock_n<N>::get, spinlock.hpp:65-73: the lock of a key; the remainder by N = 0 does not compile *)
Definition n_get (N : nat) (hash : Z) : nat := Z.to_nat (u64 hash mod Z.of_nat N).

(** What a thread does.  [NLock k]: it enters lock() of lock k.  [NXchg]: value.exchange(true) of that loop (spinlock.hpp:36).
    [NTry k]: try_lock (spinlock.hpp:39-42).  [NUnlock k]: unlock (spinlock.hpp:44-47), called by a thread that holds k.
    [NLoad i j]: x_i = std::move(x_j) begins and reads x_j (spinlock.hpp:25-29; the parameter is const, x_j is not changed).
    [NStore]: it stores what was read into x_i. *)
Inductive nact := NLock (k : nat) | NXchg | NTry (k : nat) | NUnlock (k : nat) | NLoad (i j : nat) | NStore.
Fixpoint drop1 (k : nat) (l : list nat) : list nat :=
  match l with [] => [] | x :: t => if Nat.eqb x k then t else x :: drop1 k t end.
Definition n_do (a : nact) (v : list bool) (p : nthr) : option (list bool * nthr * option bool) :=
  match a, n_pc p with
  | NLock k, NOut => match nth_error v k with Some _ => Some (v, mk_nthr (n_held p) (NSpin k), None) | None => None end
  | NXchg, NSpin k =>
      match nth_error v k with
      | Some true => Some (v, p, None)
      | Some false => Some (set_nth k true v, mk_nthr (k :: n_held p) NOut, None)
      | None => None
      end
  | NTry k, NOut =>
      match nth_error v k with
      | Some true => Some (v, p, Some false)
      | Some false => Some (set_nth k true v, mk_nthr (k :: n_held p) NOut, Some true)
      | None => None
      end
  | NUnlock k, NOut => if existsb (Nat.eqb k) (n_held p) then Some (set_nth k false v, mk_nthr (drop1 k (n_held p)) NOut, None) else None
  | NLoad i j, NOut => match nth_error v i, nth_error v j with Some _, Some b => Some (v, mk_nthr (n_held p) (NMoving i b), None) | _, _ => None end
  | NStore, NMoving i b => Some (set_nth i b v, mk_nthr (n_held p) NOut, None)
  | _, _ => None
  end.
(** Thread [t] does [a]; None: it is not in a position to. *)
Definition n_step (t : nat) (a : nact) (s : spins) : option (option bool * spins) :=
  match nth_error (n_thr s) t with
  | None => None
  | Some p => match n_do a (n_value s) p with
              | None => None
              | Some (v, p', o) => Some (o, mk_spins v (set_nth t p' (n_thr s)))
              end
  end.
Fixpoint n_run (acts : list (nat * nact)) (s : spins) : option spins :=
  match acts with
  | [] => Some s
  | (t, a) :: rest => match n_step t a s with None => None | Some (_, s1) => n_run rest s1 end
  end.
