(** Which memory the calls of aggregator_registry, aggregator_mt, wrtstat and multi_aggregator touch, under which locks, and
    who keeps an aggregator alive. *)
From Coq Require Import List Bool Arith.
From Verif Require Import ModelLocks.
Import ListNotations.

(** Memory shared by threads: the members _agarr, _dict, _enabled and initializer_ of the registry
    (aggregator_registry.hpp:113-117; _opt and the members of wrtstat never change), what the initializer function itself
    changes ([LcFun]), the deque of the pool (pool.hpp:93), the state of std::rand (separator.cpp:14), what the function given
    to set_handler changes ([LcHand]), the members of an aggregator with all they own (basic_aggregator.hpp:94-98). *)
Inductive loc := LcArr | LcDict | LcOn | LcInit | LcFun | LcPool | LcRand | LcHand | LcAgg (i : nat).
Definition loc_eq_dec : forall x y : loc, {x = y} + {x <> y}.
Proof. decide equality; apply Nat.eq_dec. Defined.

(** What a thread does, as far as others can notice.  [RUse x w]: reads the memory [x], or writes it if [w].
    Aggregators are numbered in the order in which they are made, not by position in the registry. *)
Inductive ract :=
| RAcq (l : lk) (m : mode) | RRel (l : lk) (m : mode)
| RUse (x : loc) (w : bool)
| ROwn (i : nat)        (* copies the shared_ptr of aggregator i out of _agarr *)
| RLock (i : nat)       (* weak_ptr::lock() that succeeds: basic_aggregator.hpp:107 *)
| RMake (i : nat)       (* memory for a new aggregator, to be constructed *)
| RPublish (i : nat)    (* stores it in _agarr.  The registry keeps using it through _agarr[pos] while locked: kept as a reference of the thread *)
| RUnslot (i : nat)     (* takes it out of _agarr *)
| RDrop (i : nat)       (* a shared_ptr of the thread goes out of scope *)
| REnd (i : nat).       (* the destructor has ended *)

(** The destructor of an aggregator (implicit: no lock, the buffers are deleted, not given back to the pool). *)
Definition dtor (i : nat) : list ract := [RUse (LcAgg i) true; REnd i].

Record rthread := mk_rthread { rt_held : list (lk * mode); rt_own : list nat; rt_mine : list nat; rt_prog : list ract }.
(** [rs_slot]: the aggregators in _agarr; [rs_made], [rs_dead]: those made, those destroyed.  [rt_own]: shared_ptrs of a thread;
    [rt_mine]: aggregators it constructs or destroys. *)
Record rstate := mk_rstate { rs_slot : list nat; rs_made : list nat; rs_dead : list nat; rs_ts : list rthread }.

Fixpoint put {A} (x : nat) (v : A) (l : list A) : list A :=
  match l, x with
  | [], _ => []
  | _ :: t, O => v :: t
  | y :: t, S k => y :: put k v t
  end.
Fixpoint rem (i : nat) (l : list nat) : list nat := match l with [] => [] | y :: t => if i =? y then t else y :: rem i t end.
Definition rall_held (ts : list rthread) : list (lk * mode) := flat_map rt_held ts.
(** Somebody holds a shared_ptr to [i]. *)
Definition owned (i : nat) (slot : list nat) (ts : list rthread) : Prop := In i slot \/ exists t, In t ts /\ In i (rt_own t).

(** One step of thread [x].  Any interleaving of these steps: the memory is sequentially consistent as long as there is no race. *)
Inductive rstep : rstate -> rstate -> Prop :=
| rs_acq : forall sl md dd ts x h o m l k p, nth_error ts x = Some (mk_rthread h o m (RAcq l k :: p)) -> compatible l k (rall_held ts) ->
    rstep (mk_rstate sl md dd ts) (mk_rstate sl md dd (put x (mk_rthread ((l, k) :: h) o m p) ts))
| rs_rel : forall sl md dd ts x h o m l k p, nth_error ts x = Some (mk_rthread h o m (RRel l k :: p)) -> In (l, k) h ->
    rstep (mk_rstate sl md dd ts) (mk_rstate sl md dd (put x (mk_rthread (remove1 (l, k) h) o m p) ts))
| rs_use : forall sl md dd ts x h o m y w p, nth_error ts x = Some (mk_rthread h o m (RUse y w :: p)) ->
    rstep (mk_rstate sl md dd ts) (mk_rstate sl md dd (put x (mk_rthread h o m p) ts))
| rs_own : forall sl md dd ts x h o m i p, nth_error ts x = Some (mk_rthread h o m (ROwn i :: p)) -> In i sl ->
    rstep (mk_rstate sl md dd ts) (mk_rstate sl md dd (put x (mk_rthread h (i :: o) m p) ts))
| rs_lock : forall sl md dd ts x h o m i p, nth_error ts x = Some (mk_rthread h o m (RLock i :: p)) -> owned i sl ts ->
    rstep (mk_rstate sl md dd ts) (mk_rstate sl md dd (put x (mk_rthread h (i :: o) m p) ts))
| rs_make : forall sl md dd ts x h o m i p, nth_error ts x = Some (mk_rthread h o m (RMake i :: p)) -> ~ In i md ->
    rstep (mk_rstate sl md dd ts) (mk_rstate sl (i :: md) dd (put x (mk_rthread h o (i :: m) p) ts))
| rs_publish : forall sl md dd ts x h o m i p, nth_error ts x = Some (mk_rthread h o m (RPublish i :: p)) -> In i m ->
    rstep (mk_rstate sl md dd ts) (mk_rstate (i :: sl) md dd (put x (mk_rthread h (i :: o) (rem i m) p) ts))
| rs_unslot : forall sl md dd ts x h o m i p, nth_error ts x = Some (mk_rthread h o m (RUnslot i :: p)) -> In i sl -> owned i (rem i sl) ts ->
    rstep (mk_rstate sl md dd ts) (mk_rstate (rem i sl) md dd (put x (mk_rthread h o m p) ts))
| rs_unslot_last : forall sl md dd ts x h o m i p, nth_error ts x = Some (mk_rthread h o m (RUnslot i :: p)) -> In i sl -> ~ owned i (rem i sl) ts ->
    rstep (mk_rstate sl md dd ts) (mk_rstate (rem i sl) md dd (put x (mk_rthread h o (i :: m) (dtor i ++ p)) ts))
| rs_drop : forall sl md dd ts x h o m i p, nth_error ts x = Some (mk_rthread h o m (RDrop i :: p)) -> In i o ->
    owned i sl (put x (mk_rthread h (rem i o) m p) ts) ->
    rstep (mk_rstate sl md dd ts) (mk_rstate sl md dd (put x (mk_rthread h (rem i o) m p) ts))
| rs_drop_last : forall sl md dd ts x h o m i p, nth_error ts x = Some (mk_rthread h o m (RDrop i :: p)) -> In i o ->
    ~ owned i sl (put x (mk_rthread h (rem i o) m p) ts) ->
    rstep (mk_rstate sl md dd ts) (mk_rstate sl md dd (put x (mk_rthread h (rem i o) (i :: m) (dtor i ++ p)) ts))
| rs_end : forall sl md dd ts x h o m i p, nth_error ts x = Some (mk_rthread h o m (REnd i :: p)) -> In i m ->
    rstep (mk_rstate sl md dd ts) (mk_rstate sl md (i :: dd) (put x (mk_rthread h o (rem i m) p) ts)).
Inductive rsteps : rstate -> rstate -> Prop :=
| rss_refl : forall s, rsteps s s
| rss_step : forall s1 s2 s3, rsteps s1 s2 -> rstep s2 s3 -> rsteps s1 s3.

(** ** The calls *)
Definition rsect (l : lk) (m : mode) (body : list ract) : list ract := RAcq l m :: body ++ [RRel l m].

(** aggregator_registry::aggregators_count, aggregator_registry.cpp:13-17 *)
Definition k_count : list ract := rsect LReg Rd [RUse LcArr false].
(** aggregator_registry::get_name, aggregator_registry.cpp:65-69 *)
Definition k_name : list ract := rsect LReg Rd [RUse LcDict false].
(** aggregator_registry::set_initializer, aggregator_registry.cpp:71-75 *)
Definition k_set_init : list ract := rsect LReg Wr [RUse LcInit true].
(** aggregator_registry::get_aggregator(id), aggregator_registry.cpp:113-125, with and without a result *)
Definition k_none : list ract := rsect LReg Rd [RUse LcDict false; RUse LcArr false].
Definition k_get (i : nat) : list ract := rsect LReg Rd [RUse LcDict false; RUse LcArr false; ROwn i].
(** A method of aggregator_mt (aggregator_mt.cpp:10-113) with [body] under its mutex *)
Definition k_method (i : nat) (body : list ract) : list ract := rsect (LAg i) Wr body.
(** get_aggregator and the methods called on the result before it goes out of scope: add, pop, force_pop by id
    (aggregator_registry.cpp:19-45), create_*_pusher by id (149-168), or a user who keeps the pointer *)
Definition k_with (i : nat) (bodies : list (list ract)) : list ract := k_get i ++ flat_map (k_method i) bodies ++ [RDrop i].
(** The function made by create_simple_pusher, create_data_pusher or create_reduced_pusher while the aggregator lives:
    basic_aggregator.hpp:105-114, 121-130, 137-146; afterwards it does nothing *)
Definition k_push (i : nat) (body : list ract) : list ract := RLock i :: k_method i body ++ [RDrop i].
(** aggregator_registry::create_aggregator, aggregator_registry.cpp:77-106: the name exists; it is made while the registry is
    disabled; it is made and the initializer asked, which runs [init] and maybe provides data.  std::rand is called if soiled_start_ts is set *)
Definition k_exists : list ract := rsect LReg Wr [RUse LcDict true; RUse LcArr false].
Definition k_make (i : nat) : list ract :=
  [RUse LcDict true; RUse LcArr false; RUse LcArr true; RMake i; RUse LcRand true; RUse (LcAgg i) true; RUse LcArr true; RPublish i; RUse LcOn false].
Definition k_new_off (i : nat) : list ract := rsect LReg Wr (k_make i ++ k_method i [RUse (LcAgg i) true] ++ [RDrop i]).
Definition k_new_on (i : nat) (init : list ract) (bodies : list (list ract)) : list ract :=
  rsect LReg Wr (k_make i ++ RUse LcInit false :: RUse LcFun true :: init ++ flat_map (k_method i) bodies ++ [RDrop i]).
(** aggregator_registry::del, aggregator_registry.cpp:254-264: unknown name, position already empty, found *)
Definition k_del_none : list ract := rsect LReg Wr [RUse LcDict false].
Definition k_del_empty : list ract := rsect LReg Wr [RUse LcDict false; RUse LcArr true; RUse LcDict true].
Definition k_del (i : nat) : list ract := rsect LReg Wr [RUse LcDict false; RUse LcArr true; RUnslot i; RUse LcDict true].
(** aggregator_registry::enable, aggregator_registry.cpp:242-252; the loop copies each pointer *)
Definition k_enable (l : list nat) : list ract :=
  rsect LReg Wr (RUse LcOn true :: flat_map (fun i => [RUse LcArr false; ROwn i] ++ k_method i [RUse (LcAgg i) true] ++ [RDrop i]) l).
(** aggregator_registry::pop_all, force_pop_all and pop_, aggregator_registry.cpp:47-62, 266-282: for each aggregator found the
    bodies of separate and of pop or force_pop; [true]: there is a record, its name is looked up *)
Definition k_pop_one (q : nat * (list ract * list ract * bool)) : list ract :=
  let '(i, (b1, b2, found)) := q in
  RUse LcDict false :: k_get i ++ k_method i b1 ++ k_method i b2 ++ (if found then [RUse LcDict false] else []) ++ [RDrop i].
Definition k_pop_all (l : list (nat * (list ract * list ract * bool))) (empty : nat) : list ract :=
  rsect LReg Rd (RUse LcArr false :: flat_map k_pop_one l ++ flat_map (fun _ => RUse LcDict false :: k_none) (repeat tt empty)).

(** pool::create and pool::free, pool.hpp:36-88, called by the reducer of an aggregator *)
Definition k_pool_look : list ract := rsect LPool Rd [RUse LcPool false].
Definition k_pool_change : list ract := rsect LPool Wr [RUse LcPool true].

(** The programs of threads: any calls one after the other.  While the mutex of aggregator [i] is held its members are used,
    buffers are taken from the pool and given back, and a handler may make any calls (that of wrtstat asks the registry for
    the name, wrtstat.cpp:332); so may the initializer while the registry is locked. *)
Inductive code : list ract -> Prop :=
| code_nil : code []
| code_app : forall p q, code p -> code q -> code (p ++ q)
| code_count : code k_count
| code_name : code k_name
| code_set_init : code k_set_init
| code_none : code k_none
| code_with : forall i bodies, bodies_of i bodies -> code (k_with i bodies)
| code_push : forall i b, body_of i b -> code (k_push i b)
| code_exists : code k_exists
| code_new_off : forall i, code (k_new_off i)
| code_new_on : forall i init bodies, code init -> bodies_of i bodies -> code (k_new_on i init bodies)
| code_del_none : code k_del_none
| code_del_empty : code k_del_empty
| code_del : forall i, code (k_del i)
| code_enable : forall l, code (k_enable l)
| code_pop_all : forall l n, pops_of l -> code (k_pop_all l n)
| code_hand : code [RUse LcHand true]   (* wrtstat::pushout_ hands records over: wrtstat.cpp:360-363 *)
with body_of : nat -> list ract -> Prop :=
| body_nil : forall i, body_of i []
| body_use : forall i w b, body_of i b -> body_of i (RUse (LcAgg i) w :: b)
| body_look : forall i b, body_of i b -> body_of i (k_pool_look ++ b)
| body_change : forall i b, body_of i b -> body_of i (k_pool_change ++ b)
| body_hand : forall i b, body_of i b -> body_of i (RUse LcHand true :: b)
| body_call : forall i p b, code p -> body_of i b -> body_of i (p ++ b)
with bodies_of : nat -> list (list ract) -> Prop :=
| bodies_nil : forall i, bodies_of i []
| bodies_cons : forall i b l, body_of i b -> bodies_of i l -> bodies_of i (b :: l)
with pops_of : list (nat * (list ract * list ract * bool)) -> Prop :=
| pops_nil : pops_of []
| pops_cons : forall i b1 b2 f l, body_of i b1 -> body_of i b2 -> pops_of l -> pops_of ((i, (b1, b2, f)) :: l).

Definition rstart (progs : list (list ract)) : rstate := mk_rstate [] [] [] (map (fun p => mk_rthread [] [] [] p) progs).

(** A multi_aggregator (multi_aggregator.cpp:35-103): the vector _aggregator_list owns the shards [sh] and every thread can reach them
    from the start; a call takes the
    mutex of one shard after the other and uses that shard (with its pool, which nobody else uses). *)
Definition k_shards (l : list (nat * list ract)) : list ract := flat_map (fun q => k_method (fst q) (snd q)) l.
Inductive shards_ok (sh : list nat) : list (nat * list ract) -> Prop :=
| shards_nil : shards_ok sh []
| shards_cons : forall i b l, In i sh -> shard_body sh i b -> shards_ok sh l -> shards_ok sh ((i, b) :: l)
with shard_body (sh : list nat) : nat -> list ract -> Prop :=
| shard_nil : forall i, shard_body sh i []
| shard_rand : forall i b, shard_body sh i b -> shard_body sh i (RUse LcRand true :: b)   (* a new name: basic_multi_aggregator.cpp:26 *)
| shard_hand : forall i b, shard_body sh i b -> shard_body sh i (RUse LcHand true :: b)
| shard_use : forall i w b, shard_body sh i b -> shard_body sh i (RUse (LcAgg i) w :: b)
| shard_call : forall i l b, shards_ok sh l -> shard_body sh i b -> shard_body sh i (k_shards l ++ b).
Definition sstart (sh : list nat) (progs : list (list (nat * list ract))) : rstate :=
  mk_rstate sh sh [] (map (fun l => mk_rthread [] sh [] (k_shards l)) progs).

(** Two threads are about to use the same memory and at least one of them to write it: the data race of the C++ memory model. *)
Definition race (s : rstate) (y : loc) : Prop :=
  exists a b ta tb wa wb pa pb, a <> b /\ nth_error (rs_ts s) a = Some ta /\ nth_error (rs_ts s) b = Some tb /\
    rt_prog ta = RUse y wa :: pa /\ rt_prog tb = RUse y wb :: pb /\ (wa || wb) = true.
