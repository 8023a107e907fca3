(** What a user expects of the pushers of an aggregator that threads share and clear. *)
From Coq Require Import ZArith List Bool Arith.
From Verif Require Import Base ModelTypes ModelReducer SpecReducer ModelSeparator SpecSeparator ModelAggregator SpecAggregator ModelClearMt.
Import ListNotations.

Definition ev_of (e : cmev) : nat := match e with VInv t _ | VDid t _ _ | VMade t _ | VRet t => t end.
(** What thread [t] did. *)
Definition mine (t : nat) (evs : list cmev) : list cmev := filter (fun e => ev_of e =? t) evs.
(** What was done to the aggregator, in order, with the answers. *)
Definition done_to (evs : list cmev) : list (gop * sout) :=
  flat_map (fun e => match e with VDid _ op o => [(op, o)] | _ => [] end) evs.
(** The pushers made (with a handler or not), in order. *)
Definition pushers_made (evs : list cmev) : list bool := flat_map (fun e => match e with VMade _ h => [h] | _ => [] end) evs.

(** The events of one call of thread [t], from its beginning to its return; [ps] are the pushers made. *)
Inductive one_call (t : nat) (ps : list bool) : list cmev -> Prop :=
| oc_call op o : one_call t ps [VInv t (CmCall op); VDid t op o; VRet t]
| oc_make h : one_call t ps [VInv t (CmMake h); VMade t h; VRet t]
| oc_inert p x c1 c2 : one_call t ps [VInv t (CmPush p x c1 c2); VRet t]
| oc_push p x c1 c2 h o : nth_error ps p = Some h ->
    one_call t ps [VInv t (CmPush p x c1 c2); VDid t (GoPush x h c1 c2) o; VRet t].

(** Thread [t] has begun to call the pusher [p] and has not returned. *)
Definition inside_pusher (t p : nat) (evs : list cmev) : Prop :=
  exists l x c1 c2 r, mine t evs = l ++ VInv t (CmPush p x c1 c2) :: r /\ ~ In (VRet t) r.
Definition nobody_pushing (evs : list cmev) : Prop := forall t p, ~ inside_pusher t p evs.
(** clear() has been made. *)
Definition cleared (evs : list cmev) : Prop := exists ts c, In (GoClear ts c) (map fst (done_to evs)).
