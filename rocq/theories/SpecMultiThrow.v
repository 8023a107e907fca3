(** What a user can expect of a multi_aggregator whose handler throws. *)
From Coq Require Import ZArith List Bool Arith Ascii Permutation.
From Verif Require Import Base ModelTypes ModelReducer SpecReducer ModelSeparator SpecSeparator ModelAggregator SpecAggregator ModelRegistry
  ModelMulti SpecMulti ModelThrow SpecThrow ModelMultiThrow.
Import ListNotations.
Local Open Scope Z_scope.

(** The same call with a handler that never throws. *)
Definition tm_plain (op : tmop) : mop :=
  match op with
  | TmPush e n d _ => SpecMulti.MPush e n d true
  | TmMulti ps _ => MMulti ps true
  | TmDel n => MDel n
  | TmPushout force ord _ => MPushout force true ord
  | TmSize => MSize
  end.
Definition tm_order_ok (op : tmop) : Prop := order_ok (tm_plain op).
(** Whether the handler of this call throws on this record. *)
Definition tm_th (op : tmop) (q : name * adata) : bool :=
  match op with TmPush _ _ _ th | TmMulti _ th | TmPushout _ _ th => th (fst q) (snd q) | _ => false end.
(** The records the handler was given. *)
Definition tm_given (out : tmout) : list (name * adata) :=
  match out with TmAns _ l | TmRecs l | TmThrew l => l | TmSizes _ _ => [] end.
Definition threw (out : tmout) : bool := match out with TmThrew _ => true | _ => false end.
(** The answer of a call whose handler did not throw. *)
Definition no_throw (out : mout) : tmout :=
  match out with MAns b l => TmAns b l | MRecs l => TmRecs l | MSizes a b => TmSizes a b end.
(** The handler threw on the last record it was given and on no other; or it did not throw. *)
Definition ends_at_throw (op : tmop) (out : tmout) : Prop :=
  if threw out then exists l q, tm_given out = l ++ [q] /\ tm_th op q = true /\ Forall (fun q => tm_th op q = false) l
  else Forall (fun q => tm_th op q = false) (tm_given out).

(** * One name *)
(** The calls the aggregator of [n] receives from a call of the multi_aggregator that ends with [out]: all of them, or, when the
    exception of the handler ended it, those before it. *)
Definition push_part (n : name) (th : name -> adata -> bool) (p : penv * (name * rdata)) : list top :=
  if name_eqb n (fst (snd p)) then [TPush (SmRed (snd (snd p))) (fun a => th n (no_perc a)) (pe_c1 (fst p)) (pe_c2 (fst p))] else [].
Definition part (n : name) (op : tmop) (out : tmout) (hs : list top) : Prop :=
  match op with
  | TmPush e m d th => hs = push_part n th (e, (m, d))
  | TmMulti ps th => exists p1 p2, ps = p1 ++ p2 /\ hs = flat_map (push_part n th) p1 /\ (threw out = false -> p2 = [])
  | TmPushout force _ _ => hs = [TPlain (pop_call force)] \/ hs = [] /\ threw out = true
  | TmDel _ | TmSize => hs = []
  end.
Inductive parts (n : name) : list tmop -> list tmout -> list top -> Prop :=
| pt_nil : parts n [] [] []
| pt_cons op out h ops outs hs : part n op out h -> parts n ops outs hs -> parts n (op :: ops) (out :: outs) (h ++ hs).
(** What an answer of the aggregator looks like to the handler of the multi_aggregator: pushes report without percentiles. *)
Definition t_reports (r : tret) : list adata :=
  match r with TRet o => reports o | TThrew l => map no_perc l end.
(** Every pushed record is a value of its C++ type. *)
Definition tm_typed (op : tmop) : Prop :=
  let ok e d := gop_typed (GoPush (SmRed d) true (pe_c1 e) (pe_c2 e)) in
  match op with
  | TmPush e _ d _ => ok e d
  | TmMulti ps _ => Forall (fun p => ok (fst p) (snd (snd p))) ps
  | _ => True
  end.
