(** What a user can expect when a handler throws. *)
From Coq Require Import ZArith List Bool Arith.
From Verif Require Import Base ModelTypes ModelReducer SpecReducer ModelSeparator SpecSeparator ModelAggregator SpecAggregator ModelThrow.
Import ListNotations.
Local Open Scope Z_scope.

(** A call that the exception of the handler left is, for the aggregator, a call of force_pop(). *)
Definition as_if (q : top * tret) : gop :=
  match q with
  | (TPlain op, _) => op
  | (_, TThrew _) => GoForcePop
  | (TPush x _ c1 c2, TRet _) => GoPush x true c1 c2
  | (TSeparate ts _ force c, TRet _) => GoSeparate ts true force c
  end.
(** Whether the handler of this call throws on the record [a]. *)
Definition throws_on (op : top) (a : adata) : bool :=
  match op with TPlain _ => false | TPush _ th _ _ | TSeparate _ th _ _ => th a end.
(** What the caller of [op] and its handler have seen, compared with the answer [o] of the call in its place: the same, or the handler
    got (once) what force_pop() returns - separate() gives it without percentiles and thinning (see C25) - and threw. *)
Definition looks_like (out : nat) (q : top * tret) (o : sout) : Prop :=
  match snd q with
  | TRet o' => o = o'
  | TThrew recs => exists a d, recs = [a] /\ throws_on (fst q) a = true /\ o = mk_sout None [] (Some d) /\
      match fst q with TSeparate _ _ _ _ => finished out a d | _ => d = a end
  end.
Definition t_coherent (step : Z) (res : resolution) (op : top) : Prop := match op with TPlain op => gcoherent step res op | _ => True end.
Definition t_typed (op : top) : Prop :=
  match op with TPlain op => gop_typed op | TPush x _ c1 c2 => gop_typed (GoPush x true c1 c2) | _ => True end.
Definition t_not_clear (op : top) : Prop := match op with TPlain op => gnot_clear op | _ => True end.
(** All the records handlers were given, whether they threw or not. *)
Definition given (rs : list tret) : list adata := flat_map (fun r => match r with TRet o => out_handler o | TThrew recs => recs end) rs.
(** All the records pop() and force_pop() returned. *)
Definition returned (ops : list top) (rs : list tret) : list adata :=
  flat_map (fun q => match q with (TPlain (GoPop | GoForcePop), TRet o) => match out_ptr o with Some a => [a] | None => [] end | _ => [] end)
    (combine ops rs).
(** The samples of the calls that returned true while the aggregator was enabled; those of calls that threw are not among them. *)
Fixpoint t_recorded (en : bool) (ops : list top) (rs : list tret) : list rop :=
  match ops, rs with
  | op :: ops', r :: rs' =>
      match op, r with
      | TPlain (GoAdd x _ _ | GoPush x _ _ _), TRet o | TPush x _ _ _, TRet o =>
          match out_bool o with Some true => if en then [sm_op x] else [] | _ => [] end
      | _, _ => []
      end ++ t_recorded (match op with TPlain op => en_after op en | _ => en end) ops' rs'
  | _, _ => []
  end.
