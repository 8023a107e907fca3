(** The locks taken by the calls of aggregator_registry and wrtstat, and by callbacks. *)
From Coq Require Import List Bool Arith.
Import ListNotations.

(** The registry's rwlock (aggregator_registry.hpp:111), the pool's rwlock (pool.hpp:94), the mutex of an aggregator
    (aggregator_mt.hpp:65), named by a number *)
Inductive lk := LReg | LPool | LAg (i : nat).
Inductive mode := Rd | Wr.   (* lock_r / lock; a std::mutex is only taken with Wr *)
Inductive act := Acq (l : lk) (m : mode) | Rel (l : lk) (m : mode).

Definition lk_eq_dec : forall x y : lk, {x = y} + {x <> y}.
Proof. decide equality; apply Nat.eq_dec. Defined.
Definition held_eq_dec : forall x y : lk * mode, {x = y} + {x <> y}.
Proof. decide equality; [decide equality|apply lk_eq_dec]. Defined.

(** A thread: the locks it holds, and the lock actions it still has to do *)
Record lthread := mk_lthread { l_held : list (lk * mode); l_prog : list act }.

Fixpoint remove1 (x : lk * mode) (l : list (lk * mode)) : list (lk * mode) :=
  match l with [] => [] | y :: t => if held_eq_dec x y then t else y :: remove1 x t end.

(** [l] can be taken with [m] while [h] is held (by anybody, the caller included): rwlock::lock waits for no writer and no
    readers (rwlock.hpp:49), lock_r for no writer (rwlock.hpp:70); a mutex locked twice by one thread blocks it.  That a
    waiter is woken as soon as this holds is C47. *)
Definition compatible (l : lk) (m : mode) (h : list (lk * mode)) : Prop :=
  match m with Rd => ~ In (l, Wr) h | Wr => ~ In (l, Wr) h /\ ~ In (l, Rd) h end.
Definition all_held (ts : list lthread) : list (lk * mode) := flat_map l_held ts.

Inductive lstep : list lthread -> list lthread -> Prop :=
| ls_acq : forall a h l m p b, compatible l m (all_held (a ++ mk_lthread h (Acq l m :: p) :: b)) ->
    lstep (a ++ mk_lthread h (Acq l m :: p) :: b) (a ++ mk_lthread ((l, m) :: h) p :: b)
| ls_rel : forall a h l m p b, In (l, m) h ->
    lstep (a ++ mk_lthread h (Rel l m :: p) :: b) (a ++ mk_lthread (remove1 (l, m) h) p :: b).
Inductive lsteps : list lthread -> list lthread -> Prop :=
| lss_refl : forall s, lsteps s s
| lss_step : forall s1 s2 s3, lsteps s1 s2 -> lstep s2 s3 -> lsteps s1 s3.

Definition sect (l : lk) (m : mode) (body : list act) : list act := Acq l m :: body ++ [Rel l m].

(** What a call does inside the locks it holds.  [PPool m]: empty()/filled() or the second half of create()/free() of the
    pool (pool.hpp:38,44,60,85); [PName]: the handler made by wrtstat::make_handler_(id) asks the registry for the name
    (wrtstat.cpp:332, aggregator_registry.cpp:67). *)
Inductive part := PPool (m : mode) | PName.
Definition part_acts (p : part) : list act := match p with PPool m => sect LPool m [] | PName => sect LReg Rd [] end.
Definition parts_acts (ps : list part) : list act := flat_map part_acts ps.
Definition pool_acts (ps : list mode) : list act := flat_map (fun m => sect LPool m []) ps.

Inductive call :=
| KRead                                       (* aggregators_count, get_name, get_aggregator: aggregator_registry.cpp:15,67,118 *)
| KWrite (ps : list mode)                     (* set_initializer, create_aggregator, del: aggregator_registry.cpp:73,82,256; new rows come from the pool.
                                                 The mutex of an aggregator under construction (lines 95, 101) is not yet known to anybody: left out *)
| KAg (i : nat) (ps : list mode)              (* add, pop, separate, size, clear ... of an aggregator, also push without a registry handler: aggregator_mt.cpp *)
| KPush (i : nat) (ps : list part)            (* push with the handler of wrtstat: aggregator_mt.cpp:30,36,42 *)
| KById (i : nat) (ps : list mode)            (* add/pop/force_pop/create_*_pusher by id: the lookup, then the aggregator: aggregator_registry.cpp:19-45,147-166 *)
| KPopAll (l : list (nat * (list mode * list mode)))    (* pop_all, force_pop_all: per aggregator the lookup, separate(), pop(): aggregator_registry.cpp:47-62,267-283 *)
| KEnable (l : list nat).                     (* enable: aggregator_registry.cpp:242-252 *)

Definition call_acts (c : call) : list act :=
  match c with
  | KRead => sect LReg Rd []
  | KWrite ps => sect LReg Wr (pool_acts ps)
  | KAg i ps => sect (LAg i) Wr (pool_acts ps)
  | KPush i ps => sect (LAg i) Wr (parts_acts ps)
  | KById i ps => sect LReg Rd [] ++ sect (LAg i) Wr (pool_acts ps)
  | KPopAll l => sect LReg Rd (flat_map (fun x => sect LReg Rd [] ++ sect (LAg (fst x)) Wr (pool_acts (fst (snd x))) ++
                                                       sect (LAg (fst x)) Wr (pool_acts (snd (snd x)))) l)
  | KEnable l => sect LReg Wr (flat_map (fun i => sect (LAg i) Wr []) l)
  end.
Definition start (progs : list (list call)) : list lthread := map (fun p => mk_lthread [] (flat_map call_acts p)) progs.

(** What a callback may do with the library: the handler given to push() of aggregator [i] makes the calls [cs]
    (aggregator_mt.cpp:31), the initializer makes them while the registry is locked (aggregator_registry.cpp:99) *)
Definition callback_acts (i : nat) (cs : list call) : list act := sect (LAg i) Wr (flat_map call_acts cs).
Definition initializer_acts (cs : list call) : list act := sect LReg Wr (flat_map call_acts cs).
