(** aggregator_mt used by several threads, its pushers and clear().  A pusher keeps a weak reference to the token _id that clear()
    drops; it takes a strong one before it waits for the mutex and keeps it until it returns.  The token therefore outlives clear() as
    long as some thread is inside a pusher.  One aggregator, kept alive by whoever created it (ModelConc has aggregators that are
    deleted, and no clear()). *)
From Coq Require Import ZArith List Bool Arith.
From Verif Require Import Base ModelTypes ModelReducer SpecReducer ModelSeparator SpecSeparator ModelAggregator SpecAggregator ModelRegistry.
Import ListNotations.

(** What a thread may do: call a member function, make a pusher, call the [p]-th pusher made. *)
Inductive cmcall :=
| CmCall (op : gop)
| CmMake (h : bool)
| CmPush (p : nat) (x : sample) (c1 c2 : Z).

(** Where a thread is. *)
Inductive cmpc :=
| CmIdle
| CmIn (k : cmcall)                                       (* the call has begun *)
| CmHold (pu : pusher) (x : sample) (c1 c2 : Z)           (* inside a pusher: id = wid.lock() gave the token *)
| CmDone (token : bool).                                  (* about to return; [token]: inside a pusher, the token is still held *)

Inductive cmev :=
| VInv (t : nat) (k : cmcall)               (* thread t begins the call *)
| VDid (t : nat) (op : gop) (o : sout)      (* a member function takes effect on the aggregator (under the mutex, see C48) *)
| VMade (t : nat) (h : bool)                (* a pusher is made *)
| VRet (t : nat).                           (* the call returns *)

Record cmstate := mk_cmstate { cm_g : agg; cm_pushers : list pusher; cm_thr : list cmpc }.
Definition cm_new (g : agg) (threads : nat) : cmstate := mk_cmstate g [] (repeat CmIdle threads).

(** The thread holds a strong reference to the token: [id] of basic_aggregator.hpp:107, 123, 139 *)
Definition cm_holds (p : cmpc) : bool := match p with CmHold _ _ _ _ => true | CmDone b => b | _ => false end.
(** The token exists as long as there is a strong reference: the member _id or a local [id]. *)
Definition cm_token (s : cmstate) : bool := g_id (cm_g s) || existsb cm_holds (cm_thr s).

Definition cm_to (t : nat) (p : cmpc) (s : cmstate) : cmstate := mk_cmstate (cm_g s) (cm_pushers s) (set_nth t p (cm_thr s)).

Section Step.
  Variable ne : nat -> list Z -> list Z.

  (** A step of thread [t].  If it is idle it begins the call [k]. *)
  Definition cm_step (t : nat) (k : cmcall) (s : cmstate) : outcome (list cmev * cmstate) :=
    match nth_error (cm_thr s) t with
    | None => Ok ([], s)
    | Some CmIdle => Ok ([VInv t k], cm_to t (CmIn k) s)
    (* a member function, aggregator_mt.cpp:10-113 *)
    | Some (CmIn (CmCall op)) =>
        '(o, g) <- g_call ne op (cm_g s) ;;
        Ok ([VDid t op o], cm_to t (CmDone false) (mk_cmstate g (cm_pushers s) (cm_thr s)))
    (* create_*_pusher, aggregator_mt.cpp:85-101: under the mutex; a weak reference to _id is taken, basic_aggregator.hpp:104, 120, 136 *)
    | Some (CmIn (CmMake h)) =>
        Ok ([VMade t h], cm_to t (CmDone false) (mk_cmstate (cm_g s) (cm_pushers s ++ [g_create_pusher h (cm_g s)]) (cm_thr s)))
    (* if (auto id = wid.lock()), basic_aggregator.hpp:107, 123, 139: not under the mutex *)
    | Some (CmIn (CmPush p x c1 c2)) =>
        match nth_error (cm_pushers s) p with
        | Some pu => Ok ([], cm_to t (if pu_id pu && cm_token s then CmHold pu x c1 c2 else CmDone false) s)
        | None => Ok ([], cm_to t (CmDone false) s) (* there is no such pusher *)
        end
    (* pthis->push(...), basic_aggregator.hpp:109, 125, 141 *)
    | Some (CmHold pu x c1 c2) =>
        '(o, g) <- g_call ne (GoPush x (pu_handler pu) c1 c2) (cm_g s) ;;
        Ok ([VDid t (GoPush x (pu_handler pu) c1 c2) o], cm_to t (CmDone true) (mk_cmstate g (cm_pushers s) (cm_thr s)))
    (* return; a pusher gives the token back *)
    | Some (CmDone _) => Ok ([VRet t], cm_to t CmIdle s)
    end.

  Fixpoint cm_run (s : cmstate) (sched : list (nat * cmcall)) : outcome (list cmev * cmstate) :=
    match sched with
    | [] => Ok ([], s)
    | (t, k) :: rest => '(ev, s1) <- cm_step t k s ;; '(evs, s2) <- cm_run s1 rest ;; Ok (ev ++ evs, s2)
    end.
End Step.
