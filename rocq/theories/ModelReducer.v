(** wrtstat/aggregator/reducer.{hpp,cpp} *)
From Coq Require Import ZArith List Bool Arith.
From Verif Require Import Base ModelTypes ModelAvg.
Import ListNotations.
Local Open Scope Z_scope.

(** reducer_options::mode, wrtstat/aggregator/options/reducer_options.hpp:9-13 *)
Inductive rmode := Sorting | Nth | Adapt.

Definition rmode_eqb (a b : rmode) : bool :=
  match a, b with
  | Sorting, Sorting | Nth, Nth | Adapt, Adapt => true
  | _, _ => false
  end.

(** reducer_options, wrtstat/aggregator/options/reducer_options.hpp:14-17 *)
Record ropts := mk_ropts {
  o_limit : nat; o_levels : nat; o_mode : rmode; o_initial : rmode }.

(** class reducer, members at wrtstat/aggregator/reducer.hpp:72-83.
    _data is a list of rows.  The allocator is not part of this state: _allocator.create() always yields an
    empty vector (see ModelPool.v), free() only recycles storage. *)
Record reducer := mk_reducer {
  r_opt : ropts;
  r_cur : rmode;
  r_empty : bool;
  r_min : Z;
  r_max : Z;
  r_lossy : Z;
  r_total : Z;
  r_avgc : Z;
  r_avg : f64;
  r_data : list (list Z) }.

Definition magic : nat := 16. (* wrtstat/aggregator/reducer.cpp:6 *)

(** reducer::reducer, wrtstat/aggregator/reducer.cpp:9-27: the final _opt (line 17 writes the const member through
    const_cast, which the standard leaves undefined and compilers carry out; modelled as carried out) ... *)
Definition ctor_opt (o : ropts) : ropts :=
  match o_mode o with
  | Adapt =>
      if (o_levels o =? 0)%nat || (magic <? o_limit o / o_levels o)%nat
      then mk_ropts (o_limit o) (o_levels o) Sorting (o_initial o)
      else o
  | _ => o
  end.

(** ... and the initial _current_mode (default: sorting, reducer.hpp:73). *)
Definition ctor_cur (o : ropts) : rmode :=
  match o_mode o with
  | Adapt =>
      if (o_levels o =? 0)%nat || (magic <? o_limit o / o_levels o)%nat then Sorting
      else if rmode_eqb (o_initial o) Adapt then Nth else Sorting
  | Nth => Nth
  | Sorting => Sorting
  end.

Definition reducer_new (o : ropts) : reducer :=
  mk_reducer (ctor_opt o) (ctor_cur o) true i64_max i64_min 0 0 0 avg0 [].

(** reducer::clone, reducer.cpp:29-42: note that _current_mode is not copied. *)
Definition r_clone (r : reducer) : reducer :=
  let c := reducer_new (r_opt r) in
  mk_reducer (r_opt c) (r_cur c) (r_empty r) (r_min r) (r_max r) (r_lossy r) (r_total r)
             (r_avgc r) (r_avg r) (r_data r).

(** _data.back()->size(), with [] when there is no row. *)
Definition back (d : list (list Z)) : list Z := last d [].

(** reducer::lossy_count, reducer.cpp:44-50 *)
Definition r_lossy_count (r : reducer) : Z :=
  let n := length (r_data r) in
  if (n <? 2)%nat then r_lossy r
  else u64 (r_lossy r + Z.of_nat (o_limit (r_opt r)) * Z.of_nat (n - 2) + Z.of_nat (length (back (r_data r)))).

(** reducer::total_count, reducer.cpp:52-55; levels, 57-60; max, 62-65; min, 67-70; size, 72-81; filled, 95-104;
    empty, 192-195 *)
Definition r_total_count (r : reducer) : Z := r_total r.
Definition r_get_max (r : reducer) : Z := if r_max r =? i64_min then 0 else r_max r.
Definition r_get_min (r : reducer) : Z := if r_min r =? i64_max then 0 else r_min r.
Definition r_size (r : reducer) : nat := length (concat (r_data r)).
Definition r_filled (r : reducer) : bool :=
  if (o_levels (r_opt r) =? 0)%nat || (o_limit (r_opt r) =? 0)%nat then true
  else match r_data r with
       | [] => false
       | d => (length d =? o_levels (r_opt r))%nat && (length (back d) =? o_limit (r_opt r))%nat
       end.

(** reducer::clear, reducer.cpp:106-116: _current_mode survives. *)
Definition r_clear (r : reducer) : reducer :=
  mk_reducer (r_opt r) (r_cur r) true i64_max i64_min 0 0 0 avg0 [].

(** reducer::minmax, reducer.cpp:118-122 *)
Definition r_minmax (v : Z) (r : reducer) : reducer :=
  mk_reducer (r_opt r) (r_cur r) (r_empty r) (Z.min (r_min r) v) (Z.max (r_max r) v)
             (r_lossy r) (r_total r) (r_avgc r) (r_avg r) (r_data r).

(** Apply [f] to the last row. *)
Fixpoint upd_last (f : list Z -> list Z) (d : list (list Z)) : list (list Z) :=
  match d with
  | [] => []
  | [x] => [f x]
  | x :: t => x :: upd_last f t
  end.

(** reducer::add_, reducer.cpp:270-296 *)
Definition r_add1 (v : Z) (r : reducer) : reducer :=
  let avg' := avg_step (r_avg r) (u64 (r_avgc r + 1)) v in
  let avgc' := u64 (r_avgc r + 1) in
  let mn := Z.min (r_min r) v in
  let mx := Z.max (r_max r) v in
  let o := r_opt r in
  let d := r_data r in
  let dempty := match d with [] => true | _ => false end in
  if dempty || (length (back d) =? o_limit o)%nat then
    if (length d =? o_levels o)%nat || (o_limit o =? 0)%nat then
      mk_reducer o (r_cur r) (r_empty r) mn mx (u64 (r_lossy r + 1)) (r_total r) avgc' avg' d
    else
      let d1 := if rmode_eqb (r_cur r) Sorting && negb dempty then upd_last isort d else d in
      mk_reducer o (r_cur r) (r_empty r) mn mx (r_lossy r) (r_total r) avgc' avg' (d1 ++ [[v]])
  else
    mk_reducer o (r_cur r) (r_empty r) mn mx (r_lossy r) (r_total r) avgc' avg'
               (upd_last (fun row => row ++ [v]) d).

Definition r_add_all (vs : list Z) (r : reducer) : reducer := fold_left (fun r v => r_add1 v r) vs r.

(** The bookkeeping common to the add overloads. *)
Definition r_account (total lossy : Z) (r : reducer) : reducer :=
  mk_reducer (r_opt r) (r_cur r) false (r_min r) (r_max r)
             (u64 (r_lossy r + lossy)) (u64 (r_total r + total)) (r_avgc r) (r_avg r) (r_data r).

(** reducer::add(value_type, size_t), reducer.cpp:124-131 *)
Definition r_add (v count : Z) (r : reducer) : reducer :=
  r_account count (if 1 <? count then count - 1 else 0) (r_add1 v r).

(** reducer::add(const data_type&, size_t), reducer.cpp:133-142 *)
Definition r_add_arr (vs : list Z) (count : Z) (r : reducer) : reducer :=
  let n := Z.of_nat (length vs) in
  r_account count (if n <? count then count - n else 0) (r_add_all vs r).

(** reducer::add(const data_type&), reducer.cpp:144-147, and add(initializer_list), 149-155 *)
Definition r_add_vec (vs : list Z) (r : reducer) : reducer := r_add_arr vs (Z.of_nat (length vs)) r.
Definition r_add_list (vs : list Z) (r : reducer) : reducer :=
  r_account (Z.of_nat (length vs)) 0 (r_add_all vs r).

(** reducer::add(const reduced_data&), reducer.cpp:157-166 *)
Definition r_add_red (d : rdata) (r : reducer) : reducer :=
  let i := rd_info d in
  let r1 := r_add_arr (rd_data d) (ri_count i) r in
  let r2 := if negb (ri_min i =? 0) then r_minmax (ri_min i) r1 else r1 in
  if negb (ri_max i =? 0) then r_minmax (ri_max i) r2 else r2.

(** std::vector: operator[] on a missing row is undefined, at() on a missing element throws. *)
Definition row (d : list (list Z)) (l : nat) : outcome (list Z) :=
  match nth_error d l with Some x => Ok x | None => Ub end.
Definition at_ (l : list Z) (i : nat) : outcome Z :=
  match nth_error l i with Some x => Ok x | None => Exn end.
(** Assignment to an existing position. *)
Fixpoint set_nth {A} (i : nat) (x : A) (l : list A) : list A :=
  match l, i with
  | [], _ => []
  | _ :: t, O => x :: t
  | y :: t, S j => y :: set_nth j x t
  end.

Section WithNth.
  (** The standard library's nth_element on a range: [ne k range]. *)
  Variable ne : nat -> list Z -> list Z.

  (** reducer::nth_element_, reducer.cpp:203-213; an iterator past the end is undefined. *)
  Definition nth_element_ (l i : nat) (d : list (list Z)) : outcome (list (list Z)) :=
    v <- row d l ;;
    if (length v <? i)%nat then Ub
    else
      let from := if (i <? l)%nat then O else (i - l)%nat in
      Ok (set_nth l (firstn from v ++ ne (i - from)%nat (skipn from v)) d).

  (** reducer::get_nth_, reducer.cpp:215-220 *)
  Definition get_nth_ (cm : rmode) (l i : nat) (d : list (list Z)) : outcome (Z * list (list Z)) :=
    d1 <- (if rmode_eqb cm Nth then nth_element_ l i d else Ok d) ;;
    v <- row d1 l ;;
    x <- at_ v i ;;
    Ok (x, d1).

  (** _data[0]->at(i) = get_nth_(l, i) *)
  Definition put_nth (cm : rmode) (l i : nat) (d : list (list Z)) : outcome (list (list Z)) :=
    '(x, d1) <- get_nth_ cm l i d ;;
    v0 <- row d1 0%nat ;;
    _ <- at_ v0 i ;;
    Ok (set_nth 0 (set_nth i x v0) d1).

  (** The thinning loop, reducer.cpp:237-255; [todo] is reducer_limit - i, [n] is current_levels. *)
  Fixpoint reduce_loop (cm : rmode) (n todo i l : nat) (d : list (list Z)) : outcome (list (list Z)) :=
    match todo with
    | O => Ok d
    | S todo' =>
        if (l =? n)%nat then
          d1 <- (if rmode_eqb cm Nth then nth_element_ 0 i d else Ok d) ;;
          reduce_loop cm n todo' (S i) 1 d1
        else if (l =? n - 1)%nat then
          v <- row d l ;;
          if (i <? length v)%nat then
            d1 <- put_nth cm l i d ;;
            reduce_loop cm n todo' (S i) (S l) d1
          else reduce_loop cm n todo' (S i) l d
        else
          d1 <- put_nth cm l i d ;;
          reduce_loop cm n todo' (S i) (S l) d1
    end.

  (** reducer::reduce, reducer.cpp:222-268 *)
  Definition r_reduce (r : reducer) : outcome reducer :=
    match r_data r with
    | [] => Ok r
    | _ =>
        let o := r_opt r in
        let d0 := if rmode_eqb (r_cur r) Sorting then upd_last isort (r_data r) else r_data r in
        if (length d0 =? 1)%nat then
          Ok (mk_reducer o (r_cur r) (r_empty r) (r_min r) (r_max r) (r_lossy r) (r_total r)
                         (r_avgc r) (r_avg r) d0)
        else
          let n := length d0 in
          d1 <- reduce_loop (r_cur r) n (o_limit o) 0 n d0 ;;
          let cur' := if rmode_eqb (o_mode o) Adapt
                      then if (n =? 0)%nat || (magic <? o_limit o / n)%nat then Sorting else Nth
                      else r_cur r in
          Ok (mk_reducer o cur' (r_empty r) (r_min r) (r_max r) (r_lossy_count r) (r_total r)
                         (r_avgc r) (r_avg r) (firstn 1 d1))
    end.

  (** reducer::detach, reducer.cpp:174-190 (percentiles and ts keep their default 0) *)
  Definition r_detach (r : reducer) : outcome (option adata * reducer) :=
    if r_empty r then Ok (None, r)
    else
      r1 <- r_reduce r ;;
      let data := match r_data r1 with [] => [] | v :: _ => v end in
      avg <- f64_to_i64 (r_avg r1) ;;
      Ok (Some (mk_adata (mk_rinfo 0 (r_total r1) (r_lossy r1) (r_min r1) (r_max r1) avg) perc0 data),
          r_clear r1).

  (** reducer::get_reduced, reducer.cpp:168-172 *)
  Definition r_get_reduced (r : reducer) : outcome (option adata) :=
    '(a, _) <- r_detach (r_clone r) ;; Ok a.
End WithNth.
