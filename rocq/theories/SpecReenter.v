(** What a user can say about an aggregator whose handlers call back. *)
From Coq Require Import ZArith List Bool.
From Verif Require Import Base ModelTypes ModelReducer SpecReducer ModelSeparator SpecSeparator ModelAggregator SpecAggregator ModelReenter.
Import ListNotations.
Local Open Scope Z_scope.

(** All calls satisfy [P], also those the handlers make. *)
Inductive beh_all (P : gop -> Prop) : beh -> Prop :=
| BehAll cs : Forall (fun q => P (fst q) /\ Forall (beh_all P) (snd q)) cs -> beh_all P (Beh cs).
Definition rc_all (P : gop -> Prop) (c : rcall) : Prop := P (fst c) /\ Forall (beh_all P) (snd c).
(** The handlers of this call never call back. *)
Definition receives_only (c : rcall) : Prop := Forall (fun b => b = Beh []) (snd c).

(** The records handlers were given, in that order; those pop() and force_pop() returned; the samples recorded, by calls that began while
    the aggregator was enabled and returned true. *)
Definition handed_ (evs : list rev_) : list adata := flat_map (fun e => match e with RHanded d => [d] | RDone _ _ _ => [] end) evs.
Definition popped_ (evs : list rev_) : list adata :=
  flat_map (fun e => match e with
                     | RDone _ (GoPop | GoForcePop) o => match out_ptr o with Some a => [a] | None => [] end
                     | _ => [] end) evs.
Definition taken_ (evs : list rev_) : list rop :=
  flat_map (fun e => match e with
                     | RDone true (GoAdd x _ _ | GoPush x _ _ _) o => match out_bool o with Some true => [sm_op x] | _ => [] end
                     | _ => [] end) evs.

(** What an ordinary history looks like: each call's handler is given its records, then the call returns. *)
Fixpoint as_events (en : bool) (ops : list gop) (outs : list sout) : list rev_ :=
  match ops, outs with
  | op :: ops', o :: outs' =>
      map RHanded (out_handler o) ++ RDone en op (mk_sout (out_bool o) [] (out_ptr o)) :: as_events (en_after op en) ops' outs'
  | _, _ => []
  end.
