(** What a user expects of moves: a multi_aggregator goes from variable to variable and is otherwise unaffected. *)
From Coq Require Import ZArith List Bool.
From Verif Require Import Base ModelTypes ModelReducer ModelMulti SpecMulti ModelMove.
Import ListNotations.

(** Aggregators are numbered in the order of the declarations that made them. A tale says which aggregator each
    variable holds (None: it was moved away), the options each aggregator was made with, and every call an aggregator
    received, through whatever variable, with its answer. *)
Record tale := mk_tale { tl_holds : list (option nat); tl_born : list maopts; tl_calls : list (nat * (mop * mout)) }.
Definition holder (i : nat) (t : tale) : option nat := match nth_error (tl_holds t) i with Some (Some k) => Some k | _ => None end.
Definition tell (t : tale) (p : mvop * option mout) : tale :=
  match p with
  | (VNew o, _) => mk_tale (tl_holds t ++ [Some (length (tl_born t))]) (tl_born t ++ [o]) (tl_calls t)
  | (VMove j, _) => mk_tale (set_nth j None (tl_holds t) ++ [holder j t]) (tl_born t) (tl_calls t)
  | (VAssign i j, _) =>
      mk_tale (if Nat.eqb i j then set_nth i None (tl_holds t) else set_nth i (holder j t) (set_nth j None (tl_holds t)))
        (tl_born t) (tl_calls t)
  | (VCall i c, Some r) =>
      match holder i t with
      | Some k => mk_tale (tl_holds t) (tl_born t) (tl_calls t ++ [(k, (c, r))])
      | None => t
      end
  | (VCall _ _, None) => t
  end.
Definition tale_of (ops : list mvop) (outs : list (option mout)) : tale := fold_left tell (combine ops outs) (mk_tale [] [] []).
(** The calls aggregator k received, and the answers. *)
Definition calls_of (k : nat) (t : tale) : list mop := map (fun p => fst (snd p)) (filter (fun p => Nat.eqb (fst p) k) (tl_calls t)).
Definition answers_of (k : nat) (t : tale) : list mout := map (fun p => snd (snd p)) (filter (fun p => Nat.eqb (fst p) k) (tl_calls t)).
(** Calls that look at no particular name. *)
Definition nameless (c : mop) : bool :=
  match c with MPush _ _ _ _ | MDel _ => false | MMulti ps _ => match ps with [] => true | _ => false end | MPushout _ _ _ | MSize => true end.
(** What an empty multi_aggregator answers to them. *)
Definition nothing (c : mop) : mout :=
  match c with MSize => MSizes 0 0 | MPushout _ _ _ => MRecs [] | _ => MAns true [] end.
