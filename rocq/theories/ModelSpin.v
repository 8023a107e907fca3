(** wrtstat/system/spinlock.hpp.  The flag is a sequentially consistent atomic; one step per operation on it.
    One spinlock; several, spinlock_n and moving a spinlock are in ModelSpins. *)
From Coq Require Import List Bool Arith.
Import ListNotations.

(** Where a thread is: outside, inside lock() between two exchanges, holding the lock. *)
Inductive spc := SOut | SSpin | SHold.
(** What a thread does: it enters lock(), it executes value.exchange(true) of the loop of lock() (spinlock.hpp:39), it calls
    try_lock (spinlock.hpp:42-45), it calls unlock (spinlock.hpp:47-50). *)
Inductive sact := SLock | SXchg | STry | SUnlock.
Record spin := mk_spin { sp_value : bool; sp_thr : list spc }.
(** spinlock::spinlock, spinlock.hpp:17-18 *)
Definition sp_new (n : nat) : spin := mk_spin false (repeat SOut n).

(** Thread at [p] does [a] when the flag is [v]: the new flag and place, and what try_lock returned. *)
Definition sp_do (a : sact) (v : bool) (p : spc) : option (bool * spc * option bool) :=
  match a, p with
  | SLock, SOut => Some (v, SSpin, None)
  | SXchg, SSpin => Some (true, if v then SSpin else SHold, None)
  | STry, SOut => Some (true, if v then SOut else SHold, Some (negb v))
  | SUnlock, SHold => Some (false, SOut, None)
  | _, _ => None
  end.
Inductive sp_step : spin -> nat -> sact -> option bool -> spin -> Prop :=
| sp_go : forall v l p r a v' p' o, sp_do a v p = Some (v', p', o) ->
    sp_step (mk_spin v (l ++ p :: r)) (length l) a o (mk_spin v' (l ++ p' :: r)).
Inductive sp_run (n : nat) : list (nat * sact) -> spin -> Prop :=
| sp_nil : sp_run n [] (sp_new n)
| sp_snoc : forall acts s t a o s', sp_run n acts s -> sp_step s t a o s' -> sp_run n (acts ++ [(t, a)]) s'.
