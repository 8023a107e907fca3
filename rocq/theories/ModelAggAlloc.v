(** An aggregator when memory runs out: what is left of it when an allocation inside a call throws std::bad_alloc.  ModelAlloc has the same
    for a reducer alone.  No function of basic_aggregator or separator catches anything.  A call ends at its first failing allocation, so
    that one failure point per call is enough.  Not modelled: a failure while detach() gives rows back to the pool (ModelAlloc.AtFree), and
    failures in the constructor, in clear() and in the copies of a pusher. *)
From Coq Require Import ZArith List Bool Arith.
From Verif Require Import Base ModelTypes ModelAvg ModelReducer SpecReducer ModelSeparator SpecSeparator ModelAggregator SpecAggregator ModelAlloc.
Import ListNotations.
Local Open Scope Z_scope.

(** Which allocation of a call fails.  [GfStart]: a copy of the handler before anything is done (push and separate take and pass it by value,
    basic_aggregator.cpp:45-51, 67-76, 89-97, 106-108; separator.cpp:70, 80, 91).  [GfDetach]: the new record in _reducer.detach()
    (reducer.cpp:179), or anything in get_reduced().  [GfQueue]: _sep_list.push_back (separator.cpp:162), or the copy of the handler made to call
    push_handler_ (basic_aggregator.cpp:51, 279): in both cases the record has been detached and is destroyed.  [GfValue i k]: the
    allocation [k] for the [i]-th value in _reducer.add.  [GfAg n]: _ag_list.push_back (basic_aggregator.cpp:244) for the [n]-th record. *)
Inductive gfail := GfStart | GfDetach | GfQueue | GfValue (i : nat) (k : fault) | GfAg (n : nat).

Definition at_start (f : option gfail) : bool := match f with Some GfStart => true | _ => false end.
Definition at_detach (f : option gfail) : bool := match f with Some GfDetach => true | _ => false end.
Definition at_queue (f : option gfail) : bool := match f with Some GfQueue => true | _ => false end.
Definition at_value (f : option gfail) : option failure := match f with Some (GfValue i k) => Some (AtValue i k) | _ => None end.
Definition at_ag (f : option gfail) : option nat := match f with Some (GfAg n) => Some n | _ => None end.

(** How a call ends: it returns, or bad_alloc leaves it.  [GThrew recs lost]: what the handler was given until then, and the records destroyed
    (which nobody sees). *)
Inductive gend := GRet (o : sout) | GThrew (recs lost : list adata).

Section WithNth.
  Variable ne : nat -> list Z -> list Z.

  (** The loop of separator::separate, separator.cpp:154-165.  [fd], [fq]: the allocation in detach(), or the one of handing the record on,
      fails.  The result: the records handed on; [Some lost] if the loop was left by bad_alloc; the reducer; _next_time. *)
  Fixpoint sep_loop_f (fd fq : bool) (fuel : nat) (step ts next : Z) (r : reducer) : outcome (list adata * option (list adata) * reducer * Z) :=
    if next <=? ts then
      match fuel with
      | O => Exn
      | S fuel' =>
          if fd && negb (r_empty r) then Ok ([], Some [], r, next)
          else
            '(a, r1) <- r_detach ne r ;;
            match a with
            | None => next1 <- chk (next + step) ;; sep_loop_f fd fq fuel' step ts next1 r1
            | Some x =>
                t <- chk (next - step) ;;
                let d := ad_set_ts t x in
                if fq then Ok ([], Some [d], r1, next)
                else
                  next1 <- chk (next + step) ;;
                  '(recs, e, r2, next2) <- sep_loop_f fd fq fuel' step ts next1 r1 ;;
                  Ok (d :: recs, e, r2, next2)
            end
      end
    else Ok ([], None, r, next).
  (** separator::separate, separator.cpp:147-167.  The result: [None] if bad_alloc left it; what the handler got; the records destroyed. *)
  Definition s_separate_f (fd fq : bool) (clock ts : Z) (h force : bool) (s : sep) : outcome (option bool * list adata * list adata * sep) :=
    t <- get_ts (s_step s) (s_res s) clock ts ;;
    if negb force && (t <? s_next s) then Ok (Some false, [], [], s)
    else
      '(recs, e, r, next) <- sep_loop_f fd fq (sep_fuel (s_step s) t (s_next s)) (s_step s) t (s_next s) (s_red s) ;;
      Ok (match e with None => Some true | Some _ => None end, if h then recs else [], match e with None => [] | Some l => l end,
          mk_sep r (s_step s) next (s_res s) (s_list s ++ if h then [] else recs)).
  (** separator::add and push, separator.cpp:26-96 *)
  Definition s_put_f (f : option gfail) (c1 c2 ts : Z) (h : bool) (op : rop) (s : sep) : outcome (option bool * list adata * list adata * sep) :=
    t <- get_ts (s_step s) (s_res s) c1 ts ;;
    '(b, recs, lost, s1) <- s_separate_f (at_detach f) (at_queue f) c2 t h false s ;;
    match b with
    | None => Ok (None, recs, lost, s1)
    | Some _ =>
        cur <- chk (s_next s1 - s_step s1) ;;
        if t <? cur then Ok (Some false, recs, lost, s1)
        else
          '(e, r) <- f_sound ne op (at_value f) (s_red s1) ;;
          Ok (match e with FRet _ => Some true | FThrew => None end, recs, lost,
              mk_sep (f_red r) (s_step s1) (s_next s1) (s_res s1) (s_list s1))
    end.

  (** basic_aggregator::aggregate0_, basic_aggregator.cpp:238-246; [Some lost]: bad_alloc left it *)
  Definition g_aggregate0_f (n : option nat) (g : agg) : outcome (option (list adata) * agg) :=
    let s := g_sep g in
    match match n with Some n => nth_error (s_list s) n | None => None end, n with
    | Some a, Some n =>
        ds <- g_finish_all ne (g_out g) (firstn n (s_list s)) ;;
        d <- g_finish ne (g_out g) a ;;
        Ok (Some [d], mk_agg (mk_sep (s_red s) (s_step s) (s_next s) (s_res s) (skipn (S n) (s_list s))) (g_out g) (g_enabled g)
                             (g_list g ++ ds) (g_id g))
    | _, _ => g1 <- g_aggregate0_ ne g ;; Ok (None, g1)
    end.
  (** basic_aggregator::add, basic_aggregator.cpp:33-43, 55-65, 79-87 *)
  Definition g_add_f (f : option gfail) (c1 c2 ts : Z) (op : rop) (g : agg) : outcome (gend * agg) :=
    if negb (g_enabled g) then Ok (GRet (mk_sout (Some true) [] None), g)
    else
      '(b, recs, lost, s) <- s_put_f f c1 c2 ts false op (g_sep g) ;;
      match b with
      | None => Ok (GThrew recs lost, g_set_sep s g)
      | Some false => Ok (GRet (mk_sout (Some false) [] None), g_set_sep s g)
      | Some true =>
          '(e, g1) <- g_aggregate0_f (at_ag f) (g_set_sep s g) ;;
          Ok (match e with None => GRet (mk_sout (Some true) [] None) | Some l => GThrew [] l end, g1)
      end.
  (** basic_aggregator::push, basic_aggregator.cpp:45-52, 67-77, 89-98, with push_handler_, 279-287 *)
  Definition g_push_f (f : option gfail) (c1 c2 ts : Z) (h : bool) (op : rop) (g : agg) : outcome (gend * agg) :=
    if h && at_start f then Ok (GThrew [] [], g)
    else if negb (g_enabled g) then Ok (GRet (mk_sout (Some true) [] None), g)
    else if negb h then g_add_f f c1 c2 ts op g
    else
      '(b, recs, lost, s) <- s_put_f f c1 c2 ts true op (g_sep g) ;;
      ds <- g_finish_all ne (g_out g) recs ;;
      Ok (match b with None => GThrew ds lost | Some _ => GRet (mk_sout b ds None) end, g_set_sep s g).
  (** basic_aggregator::separate, basic_aggregator.cpp:106-111.  A handler of the user is called without any copy of it: [GfQueue] does not
      happen then. *)
  Definition g_separate_f (f : option gfail) (clock ts : Z) (h force : bool) (g : agg) : outcome (gend * agg) :=
    if h && at_start f then Ok (GThrew [] [], g)
    else
      '(b, recs, lost, s) <- s_separate_f (at_detach f) (negb h && at_queue f) clock ts h force (g_sep g) ;;
      match b with
      | None => Ok (GThrew recs lost, g_set_sep s g)
      | Some _ =>
          '(e, g1) <- g_aggregate0_f (at_ag f) (g_set_sep s g) ;;
          Ok (match e with None => GRet (mk_sout b recs None) | Some l => GThrew recs l end, g1)
      end.

  (** A public call; [f]: the allocation that fails, if the call gets to it.  pop(), enable(), clear() have none.  force_pop(),
      basic_aggregator.cpp:122-130, and aggregate_current(), 132-140, allocate only in the reducer. *)
  Definition gf_call (op : gop) (f : option gfail) (g : agg) : outcome (gend * agg) :=
    match op with
    | GoAdd x c1 c2 => match x with SmList _ _ => Exn | _ => g_add_f f c1 c2 (sm_ts x) (sm_op x) g end
    | GoPush x h c1 c2 => match x with SmList _ _ => Exn | _ => g_push_f f c1 c2 (sm_ts x) h (sm_op x) g end
    | GoSeparate ts h force c => g_separate_f f c ts h force g
    | GoForcePop =>
        if at_detach f && s_empty (g_sep g) && negb (r_empty (s_red (g_sep g))) then Ok (GThrew [] [], g)
        else '(o, g1) <- g_call ne op g ;; Ok (GRet o, g1)
    | GoCurrent => if at_detach f then Ok (GThrew [] [], g) else '(o, g1) <- g_call ne op g ;; Ok (GRet o, g1)
    | _ => '(o, g1) <- g_call ne op g ;; Ok (GRet o, g1)
    end.
  Fixpoint gf_run (g : agg) (ops : list (gop * option gfail)) : outcome (list gend * agg) :=
    match ops with
    | [] => Ok ([], g)
    | (op, f) :: t => '(e, g1) <- gf_call op f g ;; '(es, g2) <- gf_run g1 t ;; Ok (e :: es, g2)
    end.
End WithNth.
