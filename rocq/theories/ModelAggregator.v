(** wrtstat/aggregator/basic_aggregator.{hpp,cpp}; the classes aggregator and aggregator_mt add only
    shared_from_this pushers and a mutex around every call. *)
From Coq Require Import ZArith List Bool Arith.
From Verif Require Import Base ModelTypes ModelAvg ModelReducer ModelSeparator.
Import ListNotations.
Local Open Scope Z_scope.

(** aggregator_options, wrtstat/aggregator/options/aggregator_options.hpp:8-16 *)
Record aopts := mk_aopts { ao_sep : sopts; ao_out : nat }.

(** class basic_aggregator, members at basic_aggregator.hpp:94-98.  [g_id]: _id is not null. *)
Record agg := mk_agg {
  g_sep : sep; g_out : nat; g_enabled : bool; g_list : list adata; g_id : bool }.

(** basic_aggregator::basic_aggregator, basic_aggregator.cpp:6-11 *)
Definition agg_new (o : aopts) (clock rnd ts : Z) : outcome agg :=
  s <- sep_new (ao_sep o) clock rnd ts ;; Ok (mk_agg s (ao_out o) true [] true).

Definition g_set_sep (s : sep) (g : agg) : agg := mk_agg s (g_out g) (g_enabled g) (g_list g) (g_id g).

(** basic_aggregator::reduce_, basic_aggregator.cpp:204-236.  std::remove_if is applied to the positions in order
    (the counter i is captured by reference); elements after the new end are cut off by resize. *)
Fixpoint keep_from (keep : nat -> bool) (i : nat) (d : list Z) : list Z :=
  match d with
  | [] => []
  | x :: t => if keep i then x :: keep_from keep (S i) t else keep_from keep (S i) t
  end.
Definition g_reduce_ (out : nat) (d : list Z) : list Z :=
  let size := length d in
  if ((out =? 0) || (size <=? out))%nat%bool then d
  else
    let kept :=
      if (size <? out * 2)%nat then
        let step := (size / (size - out))%nat in keep_from (fun i => negb (i mod step =? 0)%nat) 0 d
      else
        let step := (size / out)%nat in keep_from (fun i => (i mod step =? 0)%nat) 0 d in
    if ((0 <? length kept) && (length kept <? size))%nat%bool then kept else d.

Section WithNth.
  Variable ne : nat -> list Z -> list Z.

  (** basic_aggregator::nth_, basic_aggregator.cpp:191-202: the value, the new off and the permuted data.
      Reading *nth or *beg at the end of the data is undefined. *)
  Definition g_nth_ (perc off : nat) (d : list Z) : outcome (Z * nat * list Z) :=
    let nth := (length d * perc / 100)%nat in
    if (nth <? off)%nat then
      match nth_error d off with Some v => Ok (v, off, d) | None => Ub end
    else
      let d' := firstn off d ++ ne (nth - off) (skipn off d) in
      match nth_error d' nth with Some v => Ok (v, (nth - off)%nat, d') | None => Ub end.

  (** basic_aggregator::aggregate2_, basic_aggregator.cpp:260-277; calc_perc, 142-154, has the same body *)
  Definition g_aggregate2_ (a : adata) : outcome adata :=
    match length (ad_data a) with
    | O => Ok a
    | S _ =>
        '(v50, off, d) <- g_nth_ 50 0 (ad_data a) ;;
        '(v80, off, d) <- g_nth_ 80 off d ;;
        '(v95, off, d) <- g_nth_ 95 off d ;;
        '(v99, off, d) <- g_nth_ 99 off d ;;
        match nth_error d (length (ad_data a) - 1) with
        | Some v100 => Ok (mk_adata (ad_info a) (mk_perc v50 v80 v95 v99 v100) d)
        | None => Ub
        end
    end.

  (** aggregate2_ followed by reduce_, as in basic_aggregator.cpp:124-127, 134-137, 242-243, 283-284 *)
  Definition g_finish (out : nat) (a : adata) : outcome adata :=
    d <- g_aggregate2_ a ;; Ok (mk_adata (ad_info d) (ad_perc d) (g_reduce_ out (ad_data d))).
  Fixpoint g_finish_all (out : nat) (l : list adata) : outcome (list adata) :=
    match l with
    | [] => Ok []
    | a :: t => d <- g_finish out a ;; ds <- g_finish_all out t ;; Ok (d :: ds)
    end.

  (** basic_aggregator::aggregate0_, basic_aggregator.cpp:238-246 *)
  Definition g_aggregate0_ (g : agg) : outcome agg :=
    ds <- g_finish_all (g_out g) (s_list (g_sep g)) ;;
    let s := g_sep g in
    Ok (mk_agg (mk_sep (s_red s) (s_step s) (s_next s) (s_res s) []) (g_out g) (g_enabled g) (g_list g ++ ds) (g_id g)).

  (** The common text of the add overloads, basic_aggregator.cpp:33-43, 55-65, 79-87: [sadd] is the call on _sep *)
  Definition g_add_with (sadd : sep -> outcome (bool * list adata * sep)) (g : agg) : outcome (bool * agg) :=
    if negb (g_enabled g) then Ok (true, g)
    else
      '(b, _, s) <- sadd (g_sep g) ;;
      if negb b then Ok (false, g_set_sep s g)
      else g1 <- g_aggregate0_ (g_set_sep s g) ;; Ok (true, g1).
  Definition g_add (c1 c2 ts v count : Z) := g_add_with (s_add ne c1 c2 ts v count).
  Definition g_add_arr (c1 c2 ts : Z) (vs : list Z) (count : Z) := g_add_with (s_add_arr ne c1 c2 ts vs count).
  Definition g_add_red (c1 c2 : Z) (d : rdata) := g_add_with (s_add_red ne c1 c2 d).

  (** The common text of the push overloads, basic_aggregator.cpp:45-52, 67-77, 89-98, with push_handler_, 279-287.
      [h]: the handler is not null; the list is what it receives. *)
  Definition g_push_with (sadd spush : sep -> outcome (bool * list adata * sep)) (h : bool) (g : agg) :
      outcome (bool * list adata * agg) :=
    if negb (g_enabled g) then Ok (true, [], g)
    else if negb h then '(b, g1) <- g_add_with sadd g ;; Ok (b, [], g1)
    else
      '(b, recs, s) <- spush (g_sep g) ;;
      ds <- g_finish_all (g_out g) recs ;;
      Ok (b, ds, g_set_sep s g).
  Definition g_push (c1 c2 ts v count : Z) (h : bool) :=
    g_push_with (s_add ne c1 c2 ts v count) (s_push ne c1 c2 ts v count true) h.
  Definition g_push_arr (c1 c2 ts : Z) (vs : list Z) (count : Z) (h : bool) :=
    g_push_with (s_add_arr ne c1 c2 ts vs count) (s_push_arr ne c1 c2 ts vs count true) h.
  Definition g_push_red (c1 c2 : Z) (d : rdata) (h : bool) :=
    g_push_with (s_add_red ne c1 c2 d) (s_push_red ne c1 c2 d true) h.

  (** basic_aggregator::separate, basic_aggregator.cpp:106-111; separate(force), 101-104, passes ts 0 and no handler *)
  Definition g_separate (clock ts : Z) (h force : bool) (g : agg) : outcome (bool * list adata * agg) :=
    '(b, recs, s) <- s_separate ne clock ts h force (g_sep g) ;;
    g1 <- g_aggregate0_ (g_set_sep s g) ;;
    Ok (b, recs, g1).

  (** basic_aggregator::pop, basic_aggregator.cpp:113-120 *)
  Definition g_pop (g : agg) : option adata * agg :=
    match g_list g with
    | [] => (None, g)
    | a :: t => (Some a, mk_agg (g_sep g) (g_out g) (g_enabled g) t (g_id g))
    end.

  (** basic_aggregator::force_pop, basic_aggregator.cpp:122-130 *)
  Definition g_force_pop (g : agg) : outcome (option adata * agg) :=
    '(a, s) <- s_force_pop ne (g_sep g) ;;
    let g1 := g_set_sep s g in
    match a with
    | None => Ok (None, g1)
    | Some x => d <- g_finish (g_out g) x ;; Ok (Some d, g1)
    end.

  (** basic_aggregator::aggregate_current, basic_aggregator.cpp:132-140 *)
  Definition g_current (g : agg) : outcome (option adata) :=
    a <- s_get_current ne (g_sep g) ;;
    match a with
    | None => Ok None
    | Some x => d <- g_finish (g_out g) x ;; Ok (Some d)
    end.
End WithNth.

(** basic_aggregator::enable, basic_aggregator.cpp:157-160; size, 162-165 *)
Definition g_enable (v : bool) (g : agg) : agg := mk_agg (g_sep g) (g_out g) v (g_list g) (g_id g).
Definition g_size (g : agg) : nat := length (g_list g).

(** basic_aggregator::size(data_size, ...), basic_aggregator.cpp:167-181 (the data_size part, from 0) *)
Definition g_data_size (g : agg) : nat :=
  fold_right (fun a n => length (ad_data a) + n)%nat (s_data_size (g_sep g)) (g_list g).

(** basic_aggregator::clear, basic_aggregator.cpp:184-189 *)
Definition g_clear (clock ts : Z) (g : agg) : outcome agg :=
  s <- s_clear clock ts (g_sep g) ;; Ok (mk_agg s (g_out g) (g_enabled g) [] false).

(** A pusher made by create_simple_pusher/create_data_pusher/create_reduced_pusher, basic_aggregator.hpp:101-147:
    it keeps a weak reference to _id, which is only ever set by the constructor and reset by clear(); it works if the
    reference was not null when taken and _id has not been reset since.  (That the aggregator itself is still alive is
    modelled in ModelRegistry.) *)
Record pusher := mk_pusher { pu_id : bool; pu_handler : bool }.
Definition g_create_pusher (h : bool) (g : agg) : pusher := mk_pusher (g_id g) h.
Definition pusher_live (p : pusher) (g : agg) : bool := pu_id p && g_id g.
(** Calling a pusher; nothing is returned to the caller. *)
Definition g_call_pusher (push : bool -> agg -> outcome (bool * list adata * agg)) (p : pusher) (g : agg) :
    outcome (list adata * agg) :=
  if pusher_live p g then '(_, recs, g1) <- push (pu_handler p) g ;; Ok (recs, g1) else Ok ([], g).
