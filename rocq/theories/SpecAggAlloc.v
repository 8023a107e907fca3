(** What a user can say about an aggregator when allocations fail. *)
From Coq Require Import ZArith List Bool Arith.
From Verif Require Import Base ModelTypes ModelReducer SpecReducer ModelSeparator SpecSeparator ModelAggregator SpecAggregator ModelAlloc ModelAggAlloc.
Import ListNotations.
Local Open Scope Z_scope.

(** Calls with the allocation that fails in each, if any. *)
Definition fcall := (gop * option gfail)%type.
Definition fc_typed (q : fcall) : Prop := gop_typed (fst q).
Definition fc_not_clear (q : fcall) : Prop := match fst q with GoClear _ _ => False | _ => True end.
Definition bad_alloc (e : gend) : bool := match e with GThrew _ _ => true | GRet _ => false end.

(** The records handlers were given; those returned by pop() and force_pop(); those destroyed. *)
Definition gf_given (es : list gend) : list adata := flat_map (fun e => match e with GRet o => out_handler o | GThrew recs _ => recs end) es.
Definition gf_popped (ops : list fcall) (es : list gend) : list adata :=
  flat_map (fun q => match q with
                     | ((GoPop, _), GRet o) | ((GoForcePop, _), GRet o) => match out_ptr o with Some a => [a] | None => [] end
                     | _ => [] end) (combine ops es).
Definition gf_lost (es : list gend) : list adata := flat_map (fun e => match e with GThrew _ l => l | GRet _ => [] end) es.

(** What a call of an enabled aggregator brings in.  [First n op]: the first [n] values are tried (the allocation for the last of them failed) and
    no event is counted.  A call that returned true has brought in everything, and so has one that threw only when a finished record
    was to be queued. *)
Inductive intake := Nothing | First (n : nat) (op : rop) | Whole (op : rop).
Definition intake_of (q : fcall * gend) : intake :=
  match fst (fst q) with
  | GoAdd x _ _ | GoPush x _ _ _ =>
      match snd q with
      | GRet o => match out_bool o with Some true => Whole (sm_op x) | _ => Nothing end
      | GThrew _ _ =>
          match snd (fst q) with Some (GfAg _) => Whole (sm_op x) | Some (GfValue i _) => First (S i) (sm_op x) | _ => Nothing end
      end
  | _ => Nothing
  end.
Fixpoint intakes (en : bool) (ops : list fcall) (es : list gend) : list intake :=
  match ops, es with
  | q :: ops', e :: es' => (if en then [intake_of (q, e)] else []) ++ intakes (en_after (fst q) en) ops' es'
  | _, _ => []
  end.
(** The events counted; the values tried. *)
Definition events (l : list intake) : Z := fold_right Z.add 0 (map (fun i => match i with Whole op => op_declared op | _ => 0 end) l).
Definition tried (l : list intake) : list Z :=
  flat_map (fun i => match i with Whole op => op_values op | First n op => firstn n (op_values op) | Nothing => [] end) l.

(** The failure destroys a record: it happens between taking a record out of one place and putting it in the next. *)
Definition in_transit (f : option gfail) : bool := match f with Some GfQueue | Some (GfAg _) => true | _ => false end.
(** The failure happens before anything is changed. *)
Definition up_front (f : option gfail) : bool := match f with Some GfStart | Some GfDetach => true | _ => false end.
