(** What a user can say about a multi_aggregator when allocations fail. *)
From Coq Require Import ZArith List Bool Arith Ascii Permutation.
From Verif Require Import Base ModelTypes ModelReducer SpecReducer ModelSeparator SpecSeparator ModelAggregator SpecAggregator ModelRegistry
  ModelMulti SpecMulti ModelAlloc ModelAggAlloc SpecAggAlloc ModelMultiAlloc.
Import ListNotations.
Local Open Scope Z_scope.

(** The same call when there is memory enough, and its answer. *)
Definition fm_plain (op : fmop) : mop :=
  match op with
  | FmPush e n d _ => SpecMulti.MPush e n d true
  | FmMulti ps _ => MMulti ps true
  | FmDel n => MDel n
  | FmPushout force ord _ => MPushout force true ord
  | FmSize => MSize
  end.
Definition fm_fault (op : fmop) : bool :=
  match op with FmPush _ _ _ (Some _) | FmMulti _ (Some _) | FmPushout _ _ (Some _) => true | _ => false end.
Definition fm_ret (out : mout) : fmout :=
  match out with MAns b l => FmAns b l | MRecs l => FmRecs l | MSizes a b => FmSizes a b end.
Definition fm_order_ok (op : fmop) : Prop := order_ok (fm_plain op).
Definition fm_threw (out : fmout) : bool := match out with FmThrew _ _ => true | _ => false end.
(** The records the handler was given; the records destroyed. *)
Definition fm_given (out : fmout) : list (name * adata) :=
  match out with FmAns _ l | FmRecs l | FmThrew l _ => l | FmSizes _ _ => [] end.
Definition fm_lost (out : fmout) : list (name * adata) := match out with FmThrew _ w => w | _ => [] end.

(** * One name *)
(** The calls the aggregator of [n] receives from a call that ends with [out]: the push fails before it gets to the aggregator, or inside it;
    a batch goes as far as the push that fails; a pushout gets to the name or fails before it. *)
Definition inner (f : option mfail) : option gfail := match f with Some (MfAgg x) => Some x | _ => None end.
Definition fpush (n : name) (p : penv * (name * rdata)) (f : option mfail) : list fcall :=
  if name_eqb n (fst (snd p)) then [(GoPush (SmRed (snd (snd p))) true (pe_c1 (fst p)) (pe_c2 (fst p)), inner f)] else [].
Definition fpart (n : name) (op : fmop) (out : fmout) (hs : list fcall) : Prop :=
  match op with
  | FmPush e m d f => hs = fpush n (e, (m, d)) f \/ hs = [] /\ fm_threw out = true /\ (f = Some MfStart \/ f = Some MfNew)
  | FmMulti ps f =>
      if fm_threw out
      then exists p1 p p2 x, ps = p1 ++ p :: p2 /\ f = Some (length p1, x) /\
             (hs = flat_map (fun p => fpush n p None) p1 ++ fpush n p (Some x) \/
              hs = flat_map (fun p => fpush n p None) p1 /\ (x = MfStart \/ x = MfNew))
      else hs = flat_map (fun p => fpush n p None) ps \/
           exists p1 p p2 x, ps = p1 ++ p :: p2 /\ f = Some (length p1, x) /\
             hs = flat_map (fun p => fpush n p None) p1 ++ fpush n p (Some x) ++ flat_map (fun p => fpush n p None) p2
  | FmPushout force _ _ => hs = [(pop_call force, None)] \/ hs = [] /\ fm_threw out = true
  | FmDel _ | FmSize => hs = []
  end.
Inductive fparts (n : name) : list fmop -> list fmout -> list fcall -> Prop :=
| fp_nil : fparts n [] [] []
| fp_cons op out h ops outs hs : fpart n op out h -> fparts n ops outs hs -> fparts n (op :: ops) (out :: outs) (h ++ hs).
(** The records an answer of the aggregator brings out of it, as the handler of the multi_aggregator would see them (pushes report without
    percentiles), and those destroyed. *)
Definition f_reports (r : gend) : list adata :=
  match r with GRet o => reports o | GThrew recs lost => map no_perc recs ++ lost end.
(** Every pushed record is a value of its C++ type. *)
Definition fm_typed (op : fmop) : Prop :=
  let ok e d := gop_typed (GoPush (SmRed d) true (pe_c1 e) (pe_c2 e)) in
  match op with
  | FmPush e _ d _ => ok e d
  | FmMulti ps _ => Forall (fun p => ok (fst p) (snd (snd p))) ps
  | _ => True
  end.
(** The events of the pushes that returned true. *)
Definition accepted (hs : list fcall) (es : list gend) : Z :=
  fold_right Z.add 0 (map (fun q => match q with
    | ((GoPush x _ _ _, _), GRet o) => match out_bool o with Some true => op_declared (sm_op x) | _ => 0 end
    | _ => 0
    end) (combine hs es)).
