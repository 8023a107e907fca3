(** What a user expects of a separator: samples are grouped by time window. *)
From Coq Require Import ZArith List Bool Sorted.
From Verif Require Import Base ModelTypes ModelAvg ModelReducer SpecReducer ModelSeparator.
Import ListNotations.
Local Open Scope Z_scope.

(** A sample, as handed to an add/push overload. *)
Inductive sample :=
| SmScalar (ts v count : Z)
| SmArr (ts : Z) (vs : list Z) (count : Z)
| SmList (ts : Z) (vs : list Z)
| SmRed (d : rdata).
Definition sm_ts (x : sample) : Z :=
  match x with SmScalar ts _ _ | SmArr ts _ _ | SmList ts _ => ts | SmRed d => ri_ts (rd_info d) end.
(** The reducer call that records the sample. *)
Definition sm_op (x : sample) : rop :=
  match x with
  | SmScalar _ v c => OpAdd v c
  | SmArr _ vs c => OpAddArr vs c
  | SmList _ vs => OpAddList vs
  | SmRed d => OpAddRed d
  end.

(** Public calls on a separator.  [c1], [c2], [c]: clock readings during the call. *)
Inductive sop :=
| SoAdd (x : sample) (c1 c2 : Z)
| SoPush (x : sample) (c1 c2 : Z)                    (* with a handler; there is no initializer-list form *)
| SoSeparate (ts : Z) (h force : bool) (c : Z)
| SoPop
| SoForcePop
| SoPeek                                             (* get_current() *)
| SoClear (ts : Z) (c : Z).

(** Observable effects of one call. *)
Record sout := mk_sout {
  out_bool : option bool;       (* returned bool *)
  out_handler : list adata;     (* records given to the handler *)
  out_ptr : option adata        (* returned record *)
}.

Section Run.
  Variable ne : nat -> list Z -> list Z.

  Definition s_call (op : sop) (s : sep) : outcome (sout * sep) :=
    match op with
    | SoAdd x c1 c2 =>
        '(b, recs, s') <- match x with
          | SmScalar ts v c => s_add ne c1 c2 ts v c s
          | SmArr ts vs c => s_add_arr ne c1 c2 ts vs c s
          | SmList ts vs => s_add_list ne c1 c2 ts vs s
          | SmRed d => s_add_red ne c1 c2 d s
          end ;; Ok (mk_sout (Some b) recs None, s')
    | SoPush x c1 c2 =>
        '(b, recs, s') <- match x with
          | SmScalar ts v c => s_push ne c1 c2 ts v c true s
          | SmArr ts vs c => s_push_arr ne c1 c2 ts vs c true s
          | SmList _ _ => Exn (* no such overload *)
          | SmRed d => s_push_red ne c1 c2 d true s
          end ;; Ok (mk_sout (Some b) recs None, s')
    | SoSeparate ts h f c => '(b, recs, s') <- s_separate ne c ts h f s ;; Ok (mk_sout (Some b) recs None, s')
    | SoPop => let '(a, s') := s_pop s in Ok (mk_sout None [] a, s')
    | SoForcePop => '(a, s') <- s_force_pop ne s ;; Ok (mk_sout None [] a, s')
    | SoPeek => a <- s_get_current ne s ;; Ok (mk_sout None [] a, s)
    | SoClear ts c => s' <- s_clear c ts s ;; Ok (mk_sout None [] None, s')
    end.

  Fixpoint s_run (s : sep) (ops : list sop) : outcome (list sout * sep) :=
    match ops with
    | [] => Ok ([], s)
    | op :: t => '(o, s1) <- s_call op s ;; '(os, s2) <- s_run s1 t ;; Ok (o :: os, s2)
    end.
End Run.

(** * Specification *)
(** A time truncated towards zero to a multiple of the step. *)
Definition truncated (step t : Z) : Z := Z.quot t step * step.
(** The window start [w], congruent to [l0] modulo [step], with w <= t < w + step. *)
Definition window_of (l0 step t : Z) : Z := l0 + (t - l0) / step * step.

(** [a] is the record of the window starting at [w] in which exactly the add calls [g] were recorded, in that order:
    it is what a reducer with the same options publishes when its current window consists of exactly [g] and reduce() was
    never called explicitly. *)
Definition record_of (ne : nat -> list Z -> list Z) (o : ropts) (w : Z) (g : list rop) (a : adata) : Prop :=
  exists ops a0, Forall op_typed ops /\ (window ops = g /\ ~ In OpReduce ops) /\ publishes ne o ops a0 /\ a = ad_set_ts w a0.

(** A call exists in the interface and its arguments have their C++ types. *)
Definition sop_typed (op : sop) : Prop :=
  match op with
  | SoAdd x _ _ => op_typed (sm_op x)
  | SoPush x _ _ => op_typed (sm_op x) /\ match x with SmList _ _ => False | _ => True end
  | _ => True
  end.

(** The time a call works with: the given one, or the clock if it is 0 and a resolution is configured. *)
Definition given_time (res : resolution) (clock ts : Z) : Z := if negb (ts =? 0) || res_none res then ts else clock.
(** The time a sample is accounted to, and the time that closes windows.  They differ only if the truncated time of
    the sample is 0 while a resolution is configured. *)
Definition acc_time (step : Z) (res : resolution) (c1 ts : Z) : Z := truncated step (given_time res c1 ts).
Definition adv_time (step : Z) (res : resolution) (c1 c2 ts : Z) : Z :=
  truncated step (given_time res c2 (acc_time step res c1 ts)).

(** Abstract separator: the start of the open window, the calls recorded in it, and the closed groups queued. *)
Record spec := mk_spec { sp_cur : Z; sp_open : list rop; sp_queue : list (Z * list rop) }.
Definition group := (Z * list rop)%type.
Record spout := mk_spout { po_bool : option bool; po_handler : list group; po_ptr : option group }.

(** Time moves to [t]: the open window is closed if [t] lies beyond it. *)
Definition spec_advance (step t : Z) (sp : spec) : list group * spec :=
  if t <? sp_cur sp + step then ([], sp)
  else (match sp_open sp with [] => [] | g => [(sp_cur sp, g)] end,
        mk_spec (window_of (sp_cur sp) step t) [] (sp_queue sp)).
Definition spec_deliver (h : bool) (p : list group * spec) : list group * spec :=
  if h then p else ([], mk_spec (sp_cur (snd p)) (sp_open (snd p)) (sp_queue (snd p) ++ fst p)).
Definition spec_put (step t_adv t_acc : Z) (h : bool) (op : rop) (sp : spec) : spout * spec :=
  let '(out, sp1) := spec_deliver h (spec_advance step t_adv sp) in
  if t_acc <? sp_cur sp1 then (mk_spout (Some false) out None, sp1)
  else (mk_spout (Some true) out None, mk_spec (sp_cur sp1) (sp_open sp1 ++ [op]) (sp_queue sp1)).
Definition spec_call (step : Z) (res : resolution) (op : sop) (sp : spec) : spout * spec :=
  match op with
  | SoAdd x c1 c2 =>
      spec_put step (adv_time step res c1 c2 (sm_ts x)) (acc_time step res c1 (sm_ts x)) false (sm_op x) sp
  | SoPush x c1 c2 =>
      spec_put step (adv_time step res c1 c2 (sm_ts x)) (acc_time step res c1 (sm_ts x)) true (sm_op x) sp
  | SoSeparate ts h force c =>
      let t := acc_time step res c ts in
      let '(out, sp1) := spec_deliver h (spec_advance step t sp) in
      (mk_spout (Some (force || (sp_cur sp + step <=? t))) out None, sp1)
  | SoPop =>
      match sp_queue sp with
      | [] => (mk_spout None [] None, sp)
      | g :: q => (mk_spout None [] (Some g), mk_spec (sp_cur sp) (sp_open sp) q)
      end
  | SoForcePop =>
      match sp_queue sp with
      | g :: q => (mk_spout None [] (Some g), mk_spec (sp_cur sp) (sp_open sp) q)
      | [] => (mk_spout None [] (match sp_open sp with [] => None | g => Some (sp_cur sp, g) end),
               mk_spec (sp_cur sp) [] [])
      end
  | SoPeek => (mk_spout None [] (match sp_open sp with [] => None | g => Some (sp_cur sp, g) end), sp)
  | SoClear ts c => (mk_spout None [] None, mk_spec (acc_time step res c ts) [] [])
  end.

(** * Observables of a history *)
(** The accepted samples, in arrival order, each with the time it is accounted to. *)
Fixpoint accepted (step : Z) (res : resolution) (ops : list sop) (bs : list (option bool)) : list (Z * rop) :=
  match ops, bs with
  | op :: ops', b :: bs' =>
      match op, b with
      | SoAdd x c1 _, Some true | SoPush x c1 _, Some true => [(acc_time step res c1 (sm_ts x), sm_op x)]
      | _, _ => []
      end ++ accepted step res ops' bs'
  | _, _ => []
  end.
(** The records returned by pop() and force_pop(). *)
Fixpoint popped {A} (ops : list sop) (ps : list (option A)) : list A :=
  match ops, ps with
  | op :: ops', p :: ps' =>
      match op, p with
      | SoPop, Some a | SoForcePop, Some a => [a]
      | _, _ => []
      end ++ popped ops' ps'
  | _, _ => []
  end.
(** The add calls of the accepted samples that fall into the window starting at [w], in arrival order. *)
Definition ops_in (l0 step w : Z) (acc : list (Z * rop)) : list rop :=
  map snd (filter (fun p => window_of l0 step (fst p) =? w) acc).

(** Calls that do not close the open window prematurely. *)
Definition regular (op : sop) : Prop := match op with SoForcePop | SoClear _ _ => False | _ => True end.
(** The sample's time is the time that closes windows (see C19 for when it is not). *)
Definition coherent (step : Z) (res : resolution) (op : sop) : Prop :=
  match op with
  | SoAdd x c1 c2 | SoPush x c1 c2 => adv_time step res c1 c2 (sm_ts x) = acc_time step res c1 (sm_ts x)
  | _ => True
  end.
(** The times shown to the separator by a call. *)
Definition shown_time (step : Z) (res : resolution) (op : sop) : list Z :=
  match op with
  | SoAdd x c1 c2 | SoPush x c1 c2 => [adv_time step res c1 c2 (sm_ts x)]
  | SoSeparate ts _ _ c => [acc_time step res c ts]
  | _ => []
  end.

(** Times and values for which no arithmetic overflows. *)
Definition time_ok (step t : Z) : Prop := i64_min <= t <= i64_max - step.
Definition sop_safe (step : Z) (op : sop) : Prop :=
  match op with
  | SoAdd x c1 c2 | SoPush x c1 c2 => op_safe (sm_op x) /\ time_ok step (sm_ts x) /\ time_ok step c1 /\ time_ok step c2
  | SoSeparate ts _ _ c | SoClear ts c => time_ok step ts /\ time_ok step c
  | _ => True
  end.
Definition sop_values (op : sop) : list Z :=
  match op with SoAdd x _ _ | SoPush x _ _ => op_values (sm_op x) | _ => [] end.
(** The same calls without handlers. *)
Definition without_handler (op : sop) : sop :=
  match op with SoPush x c1 c2 => SoAdd x c1 c2 | SoSeparate ts _ f c => SoSeparate ts false f c | _ => op end.
Definition with_handler (op : sop) : Prop :=
  match op with SoPush _ _ _ => True | SoSeparate _ h _ _ => h = true | _ => False end.

Definition not_clear (op : sop) : Prop := match op with SoClear _ _ => False | _ => True end.
(** The start of the open window: what current_time() returns (separator.cpp:134-137). *)
Definition sep_label (s : sep) : Z := s_next s - s_step s.
Definition sum_count (l : list adata) : Z := fold_right Z.add 0 (map ad_count l).

(** [s] is a state of a separator with options [so], after any history, in which nothing is queued and the open window
    is empty: for instance a new separator, one just cleared, or one emptied by force_pop. *)
Definition idle (ne : nat -> list Z -> list Z) (so : sopts) (s : sep) : Prop :=
  exists c rnd ts s0 ops outs, sep_new so c rnd ts = Ok s0 /\ Forall sop_typed ops /\ s_run ne s0 ops = Ok (outs, s) /\
    s_list s = [] /\ s_get_current ne s = Ok None.
