(** The aggregator when the handler calls back.  Every other model assumes that a handler only receives; here it may call any public
    method of the same aggregator, with handlers that may do so again.  (aggregator_mt holds its mutex, which is not
    recursive, while the handler runs, so that such a call waits for itself.  Here: basic_aggregator and aggregator, which have no mutex.) *)
From Coq Require Import ZArith List Bool Arith.
From Verif Require Import Base ModelTypes ModelReducer SpecReducer ModelSeparator SpecSeparator ModelAggregator SpecAggregator.
Import ListNotations.
Local Open Scope Z_scope.

(** What a handler does when it is given a record: the calls it makes, each with what the handler of that call does the first time, the
    second time it is given a record, and so on; when the list is used up it does nothing. *)
Inductive beh := Beh (calls : list (gop * list beh)).
Definition rcall := (gop * list beh)%type.

(** What happens: a handler is given a record; a call on the aggregator ends ([en]: the aggregator was enabled when it began). *)
Inductive rev_ := RHanded (d : adata) | RDone (en : bool) (op : gop) (o : sout).

Definition set_red (r : reducer) (g : agg) : agg :=
  let s := g_sep g in g_set_sep (mk_sep r (s_step s) (s_next s) (s_res s) (s_list s)) g.
Definition set_next (n : Z) (g : agg) : agg :=
  let s := g_sep g in g_set_sep (mk_sep (s_red s) (s_step s) n (s_res s) (s_list s)) g.

Section WithNth.
  Variable ne : nat -> list Z -> list Z.

  (** The last statements of separator::push, separator.cpp:70-74, 80-84, 91-95: the sample of time [t] is rejected or added *)
  Definition re_take (t : Z) (x : sample) (g : agg) : outcome (bool * agg) :=
    cur <- chk (s_next (g_sep g) - s_step (g_sep g)) ;;
    if t <? cur then Ok (false, g)
    else match x with
         | SmScalar _ v c => Ok (true, set_red (r_add v c (s_red (g_sep g))) g)
         | SmArr _ vs c => Ok (true, set_red (r_add_arr vs c (s_red (g_sep g))) g)
         | SmList _ _ => Exn (* no such overload *)
         | SmRed d => Ok (true, set_red (r_add_red d (s_red (g_sep g))) g)
         end.

  (** [n] bounds the recursion; a result Exn says that it was too small. *)
  (** The loop of separator::separate, separator.cpp:154-165, with a handler.  It reads _next_time again in every round, so that what the
      handler did to it counts.  [fin]: the handler is push_handler_ (basic_aggregator.cpp:279-287), which finishes the record first. *)
  Fixpoint re_loop (n : nat) (fin : bool) (ts : Z) (bs : list beh) (g : agg) {struct n} : outcome (list rev_ * agg) :=
    match n with
    | O => Exn
    | S n' =>
        if s_next (g_sep g) <=? ts then
          '(a, r1) <- r_detach ne (s_red (g_sep g)) ;;
          let g1 := set_red r1 g in
          '(evs, bs1, g2) <- match a with
                             | None => Ok ([], bs, g1)
                             | Some x =>
                                 t <- chk (s_next (g_sep g) - s_step (g_sep g)) ;;
                                 d <- (if fin then g_finish ne (g_out g) (ad_set_ts t x) else Ok (ad_set_ts t x)) ;;
                                 '(evs, g2) <- re_calls n' (match bs with Beh cs :: _ => cs | [] => [] end) g1 ;;
                                 Ok (RHanded d :: evs, tl bs, g2)
                             end ;;
          next <- chk (s_next (g_sep g2) + s_step (g_sep g2)) ;;
          '(evs', g3) <- re_loop n' fin ts bs1 (set_next next g2) ;;
          Ok (evs ++ evs', g3)
        else Ok ([], g)
    end
  (** Calls one after the other. *)
  with re_calls (n : nat) (cs : list rcall) (g : agg) {struct n} : outcome (list rev_ * agg) :=
    match n with
    | O => Exn
    | S n' =>
        match cs with
        | [] => Ok ([], g)
        | c :: cs' =>
            '(evs, g1) <- re_call n' c g ;;
            '(evs', g2) <- re_calls n' cs' g1 ;;
            Ok (evs ++ evs', g2)
        end
    end
  (** One call.  With a handler: basic_aggregator::push (basic_aggregator.cpp:45-52, 67-77, 89-98) and separate (106-111), with
      separator::push (separator.cpp:67-96) and separate (147-167); every other call has none and is as before. *)
  with re_call (n : nat) (c : rcall) (g : agg) {struct n} : outcome (list rev_ * agg) :=
    match n with
    | O => Exn
    | S n' =>
        let '(op, bs) := c in
        let s := g_sep g in
        match op with
        | GoPush x true c1 c2 =>
            if negb (g_enabled g) then Ok ([RDone false op (mk_sout (Some true) [] None)], g)
            else
              t <- get_ts (s_step s) (s_res s) c1 (sm_ts x) ;;
              t2 <- get_ts (s_step s) (s_res s) c2 t ;;
              '(evs, g1) <- (if t2 <? s_next s then Ok ([], g) else re_loop n' true t2 bs g) ;;
              '(b, g2) <- re_take t x g1 ;;
              Ok (evs ++ [RDone true op (mk_sout (Some b) [] None)], g2)
        | GoSeparate ts true force c =>
            t <- get_ts (s_step s) (s_res s) c ts ;;
            let no := negb force && (t <? s_next s) in
            '(evs, g1) <- (if no then Ok ([], g) else re_loop n' false t bs g) ;;
            g2 <- g_aggregate0_ ne g1 ;;
            Ok (evs ++ [RDone (g_enabled g) op (mk_sout (Some (negb no)) [] None)], g2)
        | _ => '(o, g1) <- g_call ne op g ;; Ok ([RDone (g_enabled g) op o], g1)
        end
    end.
End WithNth.
