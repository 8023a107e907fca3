(** The calls of the user's handler among the events of a program. *)
From Coq Require Import ZArith List Bool.
From Verif Require Import Base ModelTypes ModelRegistry ModelMeters ModelSystem.
Import ListNotations.

Definition handler_calls (ev : list yev) : list (name * adata) :=
  flat_map (fun e => match e with LHandler n a => [(n, a)] | _ => [] end) ev.
Definition not_handler (e : yev) : bool := match e with LHandler _ _ => false | _ => true end.
(** [th n a]: the handler throws when it is given [a] under the name [n].  It throws on the last of these calls and on no other. *)
Definition throws_last (th : name -> adata -> bool) (l : list (name * adata)) : Prop :=
  exists l1 n a, l = l1 ++ [(n, a)] /\ th n a = true /\ (forall m b, In (m, b) l1 -> th m b = false).
Definition throws_never (th : name -> adata -> bool) (l : list (name * adata)) : Prop := forall m b, In (m, b) l -> th m b = false.
(** The point number [i] exists and is a time, size or value point. *)
Definition simple_point (s : sys) (i : nat) : Prop :=
  match m_get i (y_pts s) with Some p => match p_kind p with KComp _ => False | _ => True end | None => False end.
