(** What a user expects of an aggregator. *)
From Coq Require Import ZArith List Bool Arith Permutation.
From Verif Require Import Base ModelTypes ModelReducer SpecReducer ModelSeparator SpecSeparator ModelAggregator.
Import ListNotations.
Local Open Scope Z_scope.

(** The percentile fields of [d] are order statistics of the retained data [v]. *)
Definition percentiles_of (v : list Z) (p : perc) : Prop :=
  let n := length v in
  rank_is v (n * 50 / 100) (p50 p) /\ rank_is v (n * 80 / 100) (p80 p) /\
  rank_is v (n * 95 / 100) (p95 p) /\ rank_is v (n * 99 / 100) (p99 p).

(** [l] arises from [m] by deleting elements. *)
Inductive subseq {A} : list A -> list A -> Prop :=
| subseq_nil : subseq [] []
| subseq_keep x l m : subseq l m -> subseq (x :: l) (x :: m)
| subseq_skip x l m : subseq l m -> subseq l (x :: m).

(** Public calls on an aggregator.  In [GoAdd]/[GoPush] the sample is not an initializer list. *)
Inductive gop :=
| GoAdd (x : sample) (c1 c2 : Z)
| GoPush (x : sample) (h : bool) (c1 c2 : Z)
| GoSeparate (ts : Z) (h force : bool) (c : Z)
| GoPop
| GoForcePop
| GoCurrent                       (* aggregate_current() *)
| GoEnable (v : bool)
| GoClear (ts : Z) (c : Z).

Section Run.
  Variable ne : nat -> list Z -> list Z.

  Definition g_call (op : gop) (g : agg) : outcome (sout * agg) :=
    match op with
    | GoAdd x c1 c2 =>
        '(b, g') <- match x with
          | SmScalar ts v c => g_add ne c1 c2 ts v c g
          | SmArr ts vs c => g_add_arr ne c1 c2 ts vs c g
          | SmList _ _ => Exn (* no such overload *)
          | SmRed d => g_add_red ne c1 c2 d g
          end ;; Ok (mk_sout (Some b) [] None, g')
    | GoPush x h c1 c2 =>
        '(b, recs, g') <- match x with
          | SmScalar ts v c => g_push ne c1 c2 ts v c h g
          | SmArr ts vs c => g_push_arr ne c1 c2 ts vs c h g
          | SmList _ _ => Exn (* no such overload *)
          | SmRed d => g_push_red ne c1 c2 d h g
          end ;; Ok (mk_sout (Some b) recs None, g')
    | GoSeparate ts h f c => '(b, recs, g') <- g_separate ne c ts h f g ;; Ok (mk_sout (Some b) recs None, g')
    | GoPop => let '(a, g') := g_pop g in Ok (mk_sout None [] a, g')
    | GoForcePop => '(a, g') <- g_force_pop ne g ;; Ok (mk_sout None [] a, g')
    | GoCurrent => a <- g_current ne g ;; Ok (mk_sout None [] a, g)
    | GoEnable v => Ok (mk_sout None [] None, g_enable v g)
    | GoClear ts c => g' <- g_clear c ts g ;; Ok (mk_sout None [] None, g')
    end.

  Fixpoint g_run (g : agg) (ops : list gop) : outcome (list sout * agg) :=
    match ops with
    | [] => Ok ([], g)
    | op :: t => '(o, g1) <- g_call op g ;; '(os, g2) <- g_run g1 t ;; Ok (o :: os, g2)
    end.
End Run.

Definition gop_typed (op : gop) : Prop :=
  match op with
  | GoAdd x _ _ | GoPush x _ _ _ => op_typed (sm_op x) /\ match x with SmList _ _ => False | _ => True end
  | _ => True
  end.

(** perc100 against the retained data [v]: not below perc99, one of the values, and the maximum if there are at most
    200 of them. *)
Definition perc100_of (v : list Z) (p : perc) : Prop :=
  p99 p <= p100 p /\ In (p100 p) v /\ ((length v <= 200)%nat -> is_max (p100 p) v).
(** Thinning of [n] values to [m] for outgoing_reduced_size [out]. *)
Definition thinned_size (out n m : nat) : Prop :=
  ((out = 0 \/ n <= out) -> m = n)%nat /\
  (out <> 0 -> out < n -> n < 2 * out -> n / 2 <= m <= out /\ 1 <= m)%nat /\
  (out <> 0 -> 2 * out <= n -> out <= m <= out + out / 2)%nat.

(** [d] is what becomes of the closed record [a] before it is delivered: percentiles are filled in from the retained
    values, then the (reordered) values may be thinned to about [out] of them; everything else is kept. *)
Definition finished (out : nat) (a d : adata) : Prop :=
  ad_info d = ad_info a /\
  (exists v, Permutation v (ad_data a) /\ subseq (ad_data d) v) /\
  (ad_data a = [] -> d = a) /\
  (ad_data a <> [] -> percentiles_of (ad_data a) (ad_perc d) /\ perc100_of (ad_data a) (ad_perc d)) /\
  thinned_size out (length (ad_data a)) (length (ad_data d)).

(** [d] is the delivered form of the record of the window starting at [w] holding the add calls [g]. *)
Definition delivery_of (ne : nat -> list Z -> list Z) (o : ropts) (out : nat) (w : Z) (g : list rop) (d : adata) : Prop :=
  exists a, record_of ne o w g a /\ finished out a d.

(** A record of that window as any path may report it: percentiles and the choice of retained values left open. *)
Definition reported_as (ne : nat -> list Z -> list Z) (o : ropts) (w : Z) (g : list rop) (d : adata) : Prop :=
  exists a, record_of ne o w g a /\ ad_info d = ad_info a /\ submultiset (ad_data d) (ad_data a).

(** Whether the aggregator is enabled after a call. *)
Definition en_after (op : gop) (en : bool) : bool := match op with GoEnable v => v | _ => en end.
(** The samples recorded: add/push answered true while enabled.  In arrival order, with the time accounted to. *)
Fixpoint recorded (step : Z) (res : resolution) (en : bool) (ops : list gop) (bs : list (option bool)) : list (Z * rop) :=
  match ops, bs with
  | op :: ops', b :: bs' =>
      match op, b with
      | GoAdd x c1 _, Some true | GoPush x _ c1 _, Some true =>
          if en then [(acc_time step res c1 (sm_ts x), sm_op x)] else []
      | _, _ => []
      end ++ recorded step res (en_after op en) ops' bs'
  | _, _ => []
  end.
(** The records returned by pop() and force_pop(). *)
Fixpoint gpopped {A} (ops : list gop) (ps : list (option A)) : list A :=
  match ops, ps with
  | op :: ops', p :: ps' =>
      match op, p with
      | GoPop, Some a | GoForcePop, Some a => [a]
      | _, _ => []
      end ++ gpopped ops' ps'
  | _, _ => []
  end.
Definition gregular (op : gop) : Prop := match op with GoForcePop | GoClear _ _ => False | _ => True end.
Definition gnot_clear (op : gop) : Prop := match op with GoClear _ _ => False | _ => True end.
(** The sample's time is the time that closes windows. *)
Definition gcoherent (step : Z) (res : resolution) (op : gop) : Prop :=
  match op with
  | GoAdd x c1 c2 | GoPush x _ c1 c2 => adv_time step res c1 c2 (sm_ts x) = acc_time step res c1 (sm_ts x)
  | _ => True
  end.
Definition gop_safe (step : Z) (op : gop) : Prop :=
  match op with
  | GoAdd x c1 c2 | GoPush x _ c1 c2 => op_safe (sm_op x) /\ time_ok step (sm_ts x) /\ time_ok step c1 /\ time_ok step c2
  | GoSeparate ts _ _ c | GoClear ts c => time_ok step ts /\ time_ok step c
  | _ => True
  end.
Definition gop_values (op : gop) : list Z :=
  match op with GoAdd x _ _ | GoPush x _ _ _ => op_values (sm_op x) | _ => [] end.
Definition agg_label (g : agg) : Z := sep_label (g_sep g).

(** [g] is a state of an aggregator with options [o], after any history, with nothing queued and nothing recorded in
    the open window. *)
Definition g_idle (ne : nat -> list Z -> list Z) (o : aopts) (g : agg) : Prop :=
  exists c rnd ts g0 ops outs, agg_new o c rnd ts = Ok g0 /\ Forall gop_typed ops /\ g_run ne g0 ops = Ok (outs, g) /\
    g_list g = [] /\ s_list (g_sep g) = [] /\ g_current ne g = Ok None.

(** The calls that have an effect on the data: add/push while disabled are left out. *)
Fixpoint effective (en : bool) (ops : list gop) : list gop :=
  match ops with
  | [] => []
  | op :: t =>
      match op with
      | GoAdd _ _ _ | GoPush _ _ _ _ => if en then op :: effective en t else effective en t
      | _ => op :: effective (en_after op en) t
      end
  end.
(** Push calls with a handler, and the same calls without. *)
Definition gpush_h (op : gop) : Prop := match op with GoPush _ h _ _ => h = true | _ => False end.
Definition gpush_no (op : gop) : gop := match op with GoPush x _ c1 c2 => GoPush x false c1 c2 | _ => op end.

(** The records delivered by a history, other than by the handler of separate(). *)
Fixpoint deliveries (ops : list gop) (outs : list sout) : list adata :=
  match ops, outs with
  | op :: ops', r :: outs' =>
      match op with GoSeparate _ _ _ _ => [] | _ => out_handler r end ++
      match out_ptr r with Some d => [d] | None => [] end ++ deliveries ops' outs'
  | _, _ => []
  end.
(** The records returned by pop() alone. *)
Fixpoint pops {A} (ops : list gop) (ps : list (option A)) : list A :=
  match ops, ps with
  | op :: ops', p :: ps' =>
      match op, p with GoPop, Some a => [a] | _, _ => [] end ++ pops ops' ps'
  | _, _ => []
  end.
