(** Composite pushers created by name. *)
From Coq Require Import ZArith List Bool.
From Verif Require Import Base ModelTypes ModelReducer ModelSeparator ModelAggregator ModelRegistry.
Import ListNotations.
Local Open Scope Z_scope.

Inductive role := RoTime | RoRead | RoWrite.
Definition role_eqb (a b : role) : bool :=
  match a, b with RoTime, RoTime | RoRead, RoRead | RoWrite, RoWrite => true | _, _ => false end.

Section WithNth.
  Variable ne : nat -> list Z -> list Z.

  (** The three create_aggregator() arguments, aggregator_registry.cpp:234-237.  C++ does not fix the order in which
      arguments are evaluated: [order] lists the roles in the order used. *)
  Fixpoint create_roles (order : list role) (e : role -> cenv) (n : role -> name) (now : Z) (r : registry) : outcome ((role -> Z) * registry) :=
    match order with
    | [] => Ok (fun _ => bad_id, r)
    | k :: t =>
        '(id, r1) <- rg_create ne (e k) (n k) now r ;;
        '(ids, r2) <- create_roles t e n now r1 ;;
        Ok (fun k' => if role_eqb k' k then id else ids k', r2)
    end.
  (** create_composite_pusher(names), aggregator_registry.cpp:223-240; [h k]: the handler of role k is not null *)
  Definition rg_composite_name (order : list role) (e : role -> cenv) (n : role -> name) (h : role -> bool) (sum : bool) (now : Z) (r : registry) :
      outcome (option cpusher * registry) :=
    '(ids, r1) <- create_roles order e n now r ;;
    p <- rg_composite (ids RoTime) (ids RoRead) (ids RoWrite) (h RoTime) (h RoRead) (h RoWrite) sum r1 ;;
    Ok (p, r1).
End WithNth.
