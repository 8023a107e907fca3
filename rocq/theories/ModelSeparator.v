(** wrtstat/aggregator/separator.{hpp,cpp} *)
From Coq Require Import ZArith List Bool.
From Verif Require Import Base ModelTypes ModelAvg ModelReducer.
Import ListNotations.
Local Open Scope Z_scope.

(** separator_options, wrtstat/aggregator/options/separator_options.hpp:7-18 (reducer_options is a base class) *)
Record sopts := mk_sopts {
  so_red : ropts; so_step : Z; so_res : resolution; so_soiled : Z }.

(** class separator, members at wrtstat/aggregator/separator.hpp:75-79 *)
Record sep := mk_sep {
  s_red : reducer; s_step : Z; s_next : Z; s_res : resolution; s_list : list adata }.

(** separator::get_ts, separator.cpp:139-145.  [clock] is what separator::now(_resolution) (separator.cpp:192-204)
    returns at this point; it is only read when ts==0 and the resolution is not none.
    Division truncates; dividing by zero, or INT64_MIN by -1, is undefined. *)
Definition get_ts (step : Z) (res : resolution) (clock ts : Z) : outcome Z :=
  let now_ts := if negb (ts =? 0) || res_none res then ts else clock in
  if step =? 0 then Ub
  else q <- chk (Z.quot now_ts step) ;; chk (q * step).

(** separator::separator, separator.cpp:5-18.  [rnd] is the value returned by std::rand(), at most 2^31-1 with the
    usual library, so that rnd*rnd does not wrap. *)
Definition sep_new (o : sopts) (clock rnd ts : Z) : outcome sep :=
  t <- get_ts (so_step o) (so_res o) clock ts ;;
  t' <- (if negb (so_soiled o =? 0) then chk (t - Z.rem (rnd * rnd) (so_soiled o)) else Ok t) ;;
  next <- chk (t' + so_step o) ;;
  Ok (mk_sep (reducer_new (so_red o)) (so_step o) next (so_res o) []).

(** separator::next_time, separator.cpp:129-132; current_time, 134-137 *)
Definition s_next_time (s : sep) : Z := s_next s.
Definition s_current_time (s : sep) : outcome Z := chk (s_next s - s_step s).

Section WithNth.
  Variable ne : nat -> list Z -> list Z.

  (** The loop of separator::separate, separator.cpp:154-165: the records produced, in order, the final reducer and
      the final _next_time.  Exhausted fuel yields Exn, a result the C++ loop cannot have. *)
  Fixpoint sep_loop (fuel : nat) (step ts next : Z) (r : reducer) : outcome (list adata * reducer * Z) :=
    if next <=? ts then
      match fuel with
      | O => Exn
      | S fuel' =>
          '(a, r1) <- r_detach ne r ;;
          rec <- match a with
                 | None => Ok []
                 | Some x => t <- chk (next - step) ;; Ok [ad_set_ts t x]
                 end ;;
          next1 <- chk (next + step) ;;
          '(recs, r2, next2) <- sep_loop fuel' step ts next1 r1 ;;
          Ok (rec ++ recs, r2, next2)
      end
    else Ok ([], r, next).

  (** Enough fuel for every step: with step > 0 the loop ends after (ts-next)/step+1 rounds, with step < 0 it
      overflows after (next-INT64_MIN)/|step|+1 rounds (lemma sep_loop_fuel). *)
  Definition sep_fuel (step ts next : Z) : nat :=
    Z.to_nat (if 0 <? step then (ts - next) / step + 1 else (next - i64_min) / (- step) + 1).

  (** separator::separate, separator.cpp:147-167.  [h]: a handler is given; the second component is what it receives.
      The handler is assumed not to call back into the separator (ModelReenter: it may) and not to throw (ModelThrow: it may). *)
  Definition s_separate (clock ts : Z) (h force : bool) (s : sep) : outcome (bool * list adata * sep) :=
    t <- get_ts (s_step s) (s_res s) clock ts ;;
    if negb force && (t <? s_next s) then Ok (false, [], s)
    else
      '(recs, r, next) <- sep_loop (sep_fuel (s_step s) t (s_next s)) (s_step s) t (s_next s) (s_red s) ;;
      let keep := if h then [] else recs in
      Ok (true, if h then recs else [], mk_sep r (s_step s) next (s_res s) (s_list s ++ keep)).

  (** The common text of the add and push overloads, separator.cpp:26-96: [h] is false for add (nullptr is passed to
      separate) and for push with a null handler; [addf] is the final call on _reducer; [c1], [c2] are the clock
      readings of the two get_ts calls. *)
  Definition s_put (c1 c2 ts : Z) (h : bool) (addf : reducer -> reducer) (s : sep) : outcome (bool * list adata * sep) :=
    t <- get_ts (s_step s) (s_res s) c1 ts ;;
    '(_, recs, s1) <- s_separate c2 t h false s ;;
    cur <- chk (s_next s1 - s_step s1) ;;
    if t <? cur then Ok (false, recs, s1)
    else Ok (true, recs, mk_sep (addf (s_red s1)) (s_step s1) (s_next s1) (s_res s1) (s_list s1)).

  (** separator::add, separator.cpp:26-34, 36-44, 46-54, 56-64 *)
  Definition s_add (c1 c2 ts v count : Z) := s_put c1 c2 ts false (r_add v count).
  Definition s_add_arr (c1 c2 ts : Z) (vs : list Z) (count : Z) := s_put c1 c2 ts false (r_add_arr vs count).
  Definition s_add_list (c1 c2 ts : Z) (vs : list Z) := s_put c1 c2 ts false (r_add_list vs).
  Definition s_add_red (c1 c2 : Z) (d : rdata) := s_put c1 c2 (ri_ts (rd_info d)) false (r_add_red d).

  (** separator::push, separator.cpp:67-75, 77-85, 88-96 *)
  Definition s_push (c1 c2 ts v count : Z) (h : bool) := s_put c1 c2 ts h (r_add v count).
  Definition s_push_arr (c1 c2 ts : Z) (vs : list Z) (count : Z) (h : bool) := s_put c1 c2 ts h (r_add_arr vs count).
  Definition s_push_red (c1 c2 : Z) (d : rdata) (h : bool) := s_put c1 c2 (ri_ts (rd_info d)) h (r_add_red d).

  (** separator::pop, separator.cpp:100-107 *)
  Definition s_pop (s : sep) : option adata * sep :=
    match s_list s with
    | [] => (None, s)
    | a :: t => (Some a, mk_sep (s_red s) (s_step s) (s_next s) (s_res s) t)
    end.

  (** separator::force_pop, separator.cpp:109-119 *)
  Definition s_force_pop (s : sep) : outcome (option adata * sep) :=
    match s_pop s with
    | (Some a, s1) => Ok (Some a, s1)
    | (None, _) =>
        '(a, r) <- r_detach ne (s_red s) ;;
        let s1 := mk_sep r (s_step s) (s_next s) (s_res s) (s_list s) in
        match a with
        | Some x => t <- chk (s_next s - s_step s) ;; Ok (Some (ad_set_ts t x), s1)
        | None => Ok (None, s1)
        end
    end.

  (** separator::get_current, separator.cpp:121-127 *)
  Definition s_get_current (s : sep) : outcome (option adata) :=
    a <- r_get_reduced ne (s_red s) ;;
    match a with
    | Some x => t <- chk (s_next s - s_step s) ;; Ok (Some (ad_set_ts t x))
    | None => Ok None
    end.
End WithNth.

(** separator::ready, separator.cpp:169-172; empty, 174-177; size, 211-214; size(data_size,...), 216-231 *)
Definition s_ready (s : sep) : bool := match s_list s with [] => false | _ => true end.
Definition s_empty (s : sep) : bool := match s_list s with [] => true | _ => false end.
Definition s_size (s : sep) : nat := length (s_list s).
Definition s_data_size (s : sep) : nat :=
  fold_right (fun a n => length (ad_data a) + n)%nat (r_size (s_red s)) (s_list s).

(** separator::clear, separator.cpp:233-239 *)
Definition s_clear (clock ts : Z) (s : sep) : outcome sep :=
  t <- get_ts (s_step s) (s_res s) clock ts ;;
  next <- chk (t + s_step s) ;;
  Ok (mk_sep (r_clear (s_red s)) (s_step s) next (s_res s) []).
