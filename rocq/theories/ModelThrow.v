(** The same code when the handler of the user throws.  Every other model assumes that it does not.  [th]: whether the handler,
    given this record, throws.  What a call leaves behind is what the statements before the throw have done: no function on the
    way catches anything, and the destructors on the way only release locks and memory. *)
From Coq Require Import ZArith List Bool Arith Ascii.
From Verif Require Import Base ModelTypes ModelReducer SpecReducer ModelSeparator SpecSeparator ModelAggregator SpecAggregator
  ModelRegistry SpecRegistry ModelComposite ModelMeters ModelSystem.
Import ListNotations.
Local Open Scope Z_scope.

(** How a call ends: it returns, or the exception of the handler leaves it.  [TThrew recs]: what the handler was given until then. *)
Inductive tret := TRet (o : sout) | TThrew (recs : list adata).

Section WithNth.
  Variable ne : nat -> list Z -> list Z.

  (** The loop of separator::separate, separator.cpp:155-165, with a handler: it is called after _reducer.detach() (157) and before
      _next_time moves on (164).  The second component: it threw. *)
  Fixpoint sep_loop_t (th : adata -> bool) (fuel : nat) (step ts next : Z) (r : reducer) : outcome (list adata * bool * reducer * Z) :=
    if next <=? ts then
      match fuel with
      | O => Exn
      | S fuel' =>
          '(a, r1) <- r_detach ne r ;;
          match a with
          | None =>
              next1 <- chk (next + step) ;; sep_loop_t th fuel' step ts next1 r1
          | Some x =>
              t <- chk (next - step) ;;
              let d := ad_set_ts t x in
              if th d then Ok ([d], true, r1, next)
              else
                next1 <- chk (next + step) ;;
                '(recs, b, r2, next2) <- sep_loop_t th fuel' step ts next1 r1 ;;
                Ok (d :: recs, b, r2, next2)
          end
      end
    else Ok ([], false, r, next).
  (** separator::separate with a handler, separator.cpp:147-167; [None]: the handler threw *)
  Definition s_separate_t (clock ts : Z) (th : adata -> bool) (force : bool) (s : sep) : outcome (option bool * list adata * sep) :=
    t <- get_ts (s_step s) (s_res s) clock ts ;;
    if negb force && (t <? s_next s) then Ok (Some false, [], s)
    else
      '(recs, b, r, next) <- sep_loop_t th (sep_fuel (s_step s) t (s_next s)) (s_step s) t (s_next s) (s_red s) ;;
      Ok (if b then None else Some true, recs, mk_sep r (s_step s) next (s_res s) (s_list s)).
  (** separator::push with a handler, separator.cpp:67-75, 77-85, 88-96 *)
  Definition s_put_t (c1 c2 ts : Z) (th : adata -> bool) (addf : reducer -> reducer) (s : sep) : outcome (option bool * list adata * sep) :=
    t <- get_ts (s_step s) (s_res s) c1 ts ;;
    '(b, recs, s1) <- s_separate_t c2 t th false s ;;
    match b with
    | None => Ok (None, recs, s1)
    | Some _ =>
        cur <- chk (s_next s1 - s_step s1) ;;
        if t <? cur then Ok (Some false, recs, s1)
        else Ok (Some true, recs, mk_sep (addf (s_red s1)) (s_step s1) (s_next s1) (s_res s1) (s_list s1))
    end.

  (** basic_aggregator::push_handler_, basic_aggregator.cpp:279-287, as the handler of the separator: the record is finished and then
      given to the user's handler *)
  Definition push_handler_t (out : nat) (th : adata -> bool) (a : adata) : bool :=
    match g_finish ne out a with Ok d => th d | _ => false end.
  (** The common text of the push overloads with a handler, basic_aggregator.cpp:45-52, 67-77, 89-98 *)
  Definition g_push_t (spush : (adata -> bool) -> sep -> outcome (option bool * list adata * sep)) (th : adata -> bool) (g : agg) :
      outcome (tret * agg) :=
    if negb (g_enabled g) then Ok (TRet (mk_sout (Some true) [] None), g)
    else
      '(b, recs, s) <- spush (push_handler_t (g_out g) th) (g_sep g) ;;
      ds <- g_finish_all ne (g_out g) recs ;;
      Ok (match b with None => TThrew ds | Some _ => TRet (mk_sout b ds None) end, g_set_sep s g).
  Definition tg_push (x : sample) (th : adata -> bool) (c1 c2 : Z) : agg -> outcome (tret * agg) :=
    match x with
    | SmScalar ts v c => g_push_t (fun th => s_put_t c1 c2 ts th (r_add v c)) th
    | SmArr ts vs c => g_push_t (fun th => s_put_t c1 c2 ts th (r_add_arr vs c)) th
    | SmList _ _ => fun _ => Exn (* no such overload *)
    | SmRed d => g_push_t (fun th => s_put_t c1 c2 (ri_ts (rd_info d)) th (r_add_red d)) th
    end.
  (** basic_aggregator::separate with a handler, basic_aggregator.cpp:106-111: it gets the records unfinished *)
  Definition tg_separate (ts : Z) (th : adata -> bool) (force : bool) (c : Z) (g : agg) : outcome (tret * agg) :=
    '(b, recs, s) <- s_separate_t c ts th force (g_sep g) ;;
    match b with
    | None => Ok (TThrew recs, g_set_sep s g)
    | Some _ => g1 <- g_aggregate0_ ne (g_set_sep s g) ;; Ok (TRet (mk_sout b recs None), g1)
    end.

  (** Calls on an aggregator, among them calls with a handler that may throw. *)
  Inductive top :=
  | TPlain (op : gop)
  | TPush (x : sample) (th : adata -> bool) (c1 c2 : Z)
  | TSeparate (ts : Z) (th : adata -> bool) (force : bool) (c : Z).
  Definition t_call (op : top) (g : agg) : outcome (tret * agg) :=
    match op with
    | TPlain op => '(o, g1) <- g_call ne op g ;; Ok (TRet o, g1)
    | TPush x th c1 c2 => tg_push x th c1 c2 g
    | TSeparate ts th force c => tg_separate ts th force c g
    end.
  Fixpoint t_run (g : agg) (ops : list top) : outcome (list tret * agg) :=
    match ops with
    | [] => Ok ([], g)
    | op :: t => '(o, g1) <- t_call op g ;; '(os, g2) <- t_run g1 t ;; Ok (o :: os, g2)
    end.

  (** Calling a pusher (basic_aggregator.hpp:101-147) of an aggregator in a registry.  The boolean: the exception left the call. *)
  Definition rg_call_pusher_t (th : adata -> bool) (p : rpusher) (x : sample) (c1 c2 : Z) (r : registry) :
      outcome (bool * list adata * registry) :=
    match find_obj (rp_obj p) (rg_arr r) with
    | None => Ok (false, [], r)
    | Some (pos, g) =>
        '(o, g') <- (if pusher_live (rp_pu p) g
                     then if pu_handler (rp_pu p) then tg_push x th c1 c2 g
                          else '(o, g1) <- g_call ne (GoPush x false c1 c2) g ;; Ok (TRet o, g1)
                     else Ok (TRet (mk_sout None [] None), g)) ;;
        Ok (match o with TThrew _ => true | TRet _ => false end,
            match o with TThrew recs => recs | TRet o => out_handler o end,
            rg_set pos (Some (rp_obj p, g')) r)
    end.
  Definition rg_call_opt_t (th : adata -> bool) (p : option rpusher) (x : sample) (c1 c2 : Z) (r : registry) :
      outcome (bool * list adata * registry) :=
    match p with None => Ok (false, [], r) | Some p => rg_call_pusher_t th p x c1 c2 r end.

  (** From here on [th n a]: whether the handler of the options throws when it gets the record [a] with the name [n].
      What make_handler_(id), wrtstat.cpp:321-342, and make_handler_(name), 344-354, do with an exception: nothing. *)
  Definition dest_t (th : name -> adata -> bool) (d : dest) (r : registry) : adata -> bool :=
    match d with
    | DName n => th n
    | DId id => match rg_get_name id r with [] => fun _ => false | n => th n end
    end.
  Definition y_call_t (th : name -> adata -> bool) (p : option rpusher) (d : dest) (x : sample) (cl : Z * Z) (s : sys) :
      outcome (bool * list yev * sys) :=
    '(b, recs, r) <- rg_call_opt_t (dest_t th d (y_reg s)) p x (fst cl) (snd cl) (y_reg s) ;;
    let s1 := y_set_reg r s in
    ev <- y_deliver d recs s1 ;; Ok (b, ev, s1).
  (** A point calls its function; make_composite_handler_, aggregator_registry.cpp:127-146, calls the adders one after another. *)
  Definition y_report_t (th : name -> adata -> bool) (rp : report) (cl : role -> Z * Z) (s : sys) : outcome (bool * list yev * sys) :=
    match nth_error (y_funs s) (rp_fun rp), rp_sizes rp with
    | Some (FOne p id), None => y_call_t th (Some p) (DId id) (SmScalar (rp_now rp) (rp_value rp) (rp_count rp)) (cl RoTime) s
    | Some (FComp p to), Some (rd, wr) =>
        '(b1, e1, s1) <- y_call_t th (cp_time p) (to RoTime) (SmScalar (rp_now rp) (rp_value rp) (rp_count rp)) (cl RoTime) s ;;
        if (b1 : bool) then Ok (true, e1, s1)
        else
          '(b2, e2, s2) <- y_call_t th (cp_read p) (to RoRead) (SmScalar (rp_now rp) (to_i64 rd) (if cp_sum p then rd else rp_count rp)) (cl RoRead) s1 ;;
          if (b2 : bool) then Ok (true, e1 ++ e2, s2)
          else
            '(b3, e3, s3) <- y_call_t th (cp_write p) (to RoWrite) (SmScalar (rp_now rp) (to_i64 wr) (if cp_sum p then wr else rp_count rp)) (cl RoWrite) s2 ;;
            Ok (b3, e1 ++ e2 ++ e3, s3)
    | _, _ => Ub
    end.
  Fixpoint y_events_t (th : name -> adata -> bool) (es : list mevent) (cl : role -> Z * Z) (s : sys) : outcome (bool * list yev * sys) :=
    match es with
    | [] => Ok (false, [], s)
    | e :: t =>
        '(b, ev1, s1) <- match e with EvReport rp => y_report_t th rp cl s | _ => Ok (false, [], s) end ;;
        if (b : bool) then Ok (true, LPoint e :: ev1, s1)
        else '(b2, ev2, s2) <- y_events_t th t cl s1 ;; Ok (b2, LPoint e :: ev1 ++ ev2, s2)
    end.

  (** How an operation of a program ends.  [EndTerminate]: the exception would leave a destructor, these are implicitly noexcept, so
      std::terminate is called and the program is over. *)
  Inductive ending := EndReturn | EndThrow | EndTerminate.
  (** An exception during push(), reset(fun, ...) or a destructor of a point: the members are assigned only after the call
      (time_meter.hpp:56-64, 48-54 and the same places of the other points), so the point is left as it was. *)
  Definition at_throw (o : mop) : ending := match o with MDestroy _ _ _ => EndTerminate | _ => EndThrow end.
  (** wrtstat::pushout_, wrtstat.cpp:356-365: the records are taken out first, then given to the handler one by one *)
  Fixpoint give (th : name -> adata -> bool) (l : list (name * adata)) : bool * list (name * adata) :=
    match l with
    | [] => (false, [])
    | (n, a) :: t => if th n a then (true, [(n, a)]) else let '(b, l1) := give th t in (b, (n, a) :: l1)
    end.
  Definition y_do_t (th : name -> adata -> bool) (op : yop) (s : sys) : outcome (ending * list yev * sys) :=
    match op with
    | YPt o cl =>
        if y_typed o s then
          let '(es, pts) := m_do o (y_pts s) in
          '(b, ev, s1) <- y_events_t th es cl s ;;
          Ok (if b then (at_throw o, ev, s1) else (EndReturn, ev, mk_sys (y_wrt s1) (y_alive s1) (y_funs s1) pts))
        else Ok (EndReturn, [], s)
    | YPushout force clk =>
        if negb (y_alive s) then Ub
        else
          '(l, w) <- w_pushout ne force clk (y_wrt s) ;;
          let '(b, l1) := give th l in
          let ev := map (fun q => LHandler (fst q) (snd q)) l1 in
          Ok (if b then EndThrow else EndReturn, if b then ev else ev ++ [LPushed (length l)], mk_sys w (y_alive s) (y_funs s) (y_pts s))
    | YDestroy clk =>
        (* ~wrtstat, wrtstat.cpp:58-61 *)
        if negb (y_alive s) then Ub
        else
          '(l, w) <- w_pushout ne true clk (y_wrt s) ;;
          let '(b, l1) := give th l in
          let ev := map (fun q => LHandler (fst q) (snd q)) l1 in
          let r := w_reg w in
          Ok (if b then EndTerminate else EndReturn, ev,
              mk_sys (mk_wrt (mk_registry (rg_opt r) [] (rg_dict r) (rg_enabled r) (rg_initializer r) (rg_next r)) (w_handler w))
                     false (y_funs s) (y_pts s))
    | _ => '(ev, s1) <- y_do ne op s ;; Ok (EndReturn, ev, s1)   (* no handler is called *)
    end.
  (** A program whose exceptions are caught by the caller of wrtstat and which then goes on; nothing follows std::terminate. *)
  Fixpoint y_run_t (s : sys) (ops : list ((name -> adata -> bool) * yop)) : outcome (list (ending * list yev) * sys) :=
    match ops with
    | [] => Ok ([], s)
    | (th, op) :: t =>
        '(e, ev, s1) <- y_do_t th op s ;;
        match e with
        | EndTerminate => Ok ([(e, ev)], s1)
        | _ => '(es, s2) <- y_run_t s1 t ;; Ok ((e, ev) :: es, s2)
        end
    end.
End WithNth.
