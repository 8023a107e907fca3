(** The locks taken by handlers that make calls whose handlers make calls, and so on. *)
From Coq Require Import List Bool Arith.
From Verif Require Import ModelLocks ModelShards.
Import ListNotations.

(** A call on a registry or on one of its aggregators, with everything it does inside its locks, in order.
    [NPool m]: an operation of the pool (pool.hpp:38,44,60,85).
    [NRead]: aggregators_count, get_name, get_aggregator (aggregator_registry.cpp:15,67,118).
    [NAg byid i body]: a call on aggregator [i], directly (aggregator_mt.cpp) or by id, that is with a lookup in front
    (aggregator_registry.cpp:19-45,147-166); [body]: what it and the handler given to it do while the mutex is held. *)
Inductive ncall := NPool (m : mode) | NRead | NAg (byid : bool) (i : nat) (body : list ncall).
Fixpoint ncall_acts (c : ncall) : list act :=
  match c with
  | NPool m => sect LPool m []
  | NRead => sect LReg Rd []
  | NAg byid i body => (if byid then sect LReg Rd [] else []) ++ sect (LAg i) Wr (flat_map ncall_acts body)
  end.
(** The calls of the threads: ordinary ones (ModelLocks.call) and those with handlers that call. *)
Definition top_acts (x : call + ncall) : list act := match x with inl c => call_acts c | inr c => ncall_acts c end.
Definition nstart (progs : list (list (call + ncall))) : list lthread := map (fun p => mk_lthread [] (flat_map top_acts p)) progs.

(** The same for a multi_aggregator: a call locks a shard (multi_aggregator.cpp:35-67; pushout and size lock one after the
    other, 70-103) and the handler may make such calls again. *)
Inductive shcall := ShCall (i : nat) (inner : list shcall).
Fixpoint shcall_acts (c : shcall) : list act := match c with ShCall i inner => shard_acts i (flat_map shcall_acts inner) end.
Definition shstart (progs : list (list shcall)) : list lthread := map (fun p => mk_lthread [] (flat_map shcall_acts p)) progs.
