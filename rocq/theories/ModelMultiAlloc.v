(** A multi_aggregator when memory runs out (wrtstat/multi_aggregator/): what is left of it when an allocation inside a call throws
    std::bad_alloc.  ModelAggAlloc has the same for one aggregator.  No function on the way catches anything; the lock_guard of the shard
    releases its mutex.  A call ends at its first failing allocation, so that one failure point per call is enough.  Handlers are not null and
    do not throw (ModelMultiThrow).  Not modelled: a failure in the constructor, where bad_alloc thrown inside the noexcept lambdas of
    multi_aggregator.cpp:116-121 ends the process; del() and size() allocate nothing. *)
From Coq Require Import ZArith List Bool Arith Ascii.
From Verif Require Import Base ModelTypes ModelReducer SpecReducer ModelSeparator SpecSeparator ModelAggregator SpecAggregator ModelRegistry
  ModelMulti ModelAlloc ModelAggAlloc.
Import ListNotations.
Local Open Scope Z_scope.

(** Which allocation of a push fails.  [MfStart]: the copy of the handler made to call push (multi_aggregator.cpp:35).  [MfNew]: the new
    aggregator or the new node of the map (basic_multi_aggregator.cpp:23-32; insert of an unordered_map has no effect when it throws).
    [MfAgg f]: the allocation [f] of the aggregator's push; [GfStart] is here the copy of the handler into the lambda (34), [GfQueue] also
    the request or the copy of the name into it (35-36): the record has been detached and is destroyed. *)
Inductive mfail := MfStart | MfNew | MfAgg (f : gfail).
(** Which allocation of a pushout fails, at one name: [PfDetach], the new record in force_pop(); [PfRequest], the request or the copy of the
    name (basic_multi_aggregator.cpp:63-64, 86-87): the record has left the aggregator and is destroyed. *)
Inductive pfail := PfDetach | PfRequest.

Section WithNth.
  Variable ne : nat -> list Z -> list Z.

  (** basic_multi_aggregator::push, basic_multi_aggregator.cpp:18-40.  The result: [None] if bad_alloc left it; what the handler was given;
      the records destroyed; the map. *)
  Definition bm_push_f (o : aopts) (e : penv) (n : name) (d : rdata) (f : option mfail) (m : bmulti) :
      outcome (option bool * list (name * adata) * list (name * adata) * bmulti) :=
    match f, bm_find n m with
    | Some MfNew, None => Ok (None, [], [], m)
    | _, _ =>
        g <- match bm_find n m with
             | Some g => Ok g
             | None => agg_new o (pe_clock e) (pe_rnd e) (ri_ts (rd_info d))
             end ;;
        '(r, g1) <- g_push_f ne (match f with Some (MfAgg x) => Some x | _ => None end) (pe_c1 e) (pe_c2 e) (sm_ts (SmRed d)) true (sm_op (SmRed d)) g ;;
        match r with
        | GRet x => Ok (out_bool x, map (fun a => (n, only_reduced a)) (out_handler x), [], bm_set n g1 m)
        | GThrew recs lost => Ok (None, map (fun a => (n, only_reduced a)) recs, map (fun a => (n, a)) lost, bm_set n g1 m)
        end
    end.
  (** pushout, basic_multi_aggregator.cpp:57-69, and force_pushout, 80-92.  The boolean: bad_alloc left it. *)
  Fixpoint bm_loop_f (f : option (name * pfail)) (force : bool) (ks : list name) (m : bmulti) :
      outcome (bool * list (name * adata) * list (name * adata) * bmulti) :=
    match ks with
    | [] => Ok (false, [], [], m)
    | n :: t =>
        match bm_find n m with
        | None => bm_loop_f f force t m
        | Some g =>
            let here := match f with Some (k, x) => if name_eqb n k then Some x else None | None => None end in
            match here, force && s_empty (g_sep g) && negb (r_empty (s_red (g_sep g))) with
            | Some PfDetach, true => Ok (true, [], [], m)
            | _, _ =>
                '(a, g1) <- (if force then g_force_pop ne g else Ok (g_pop g)) ;;
                match a, here with
                | Some x, Some PfRequest => Ok (true, [], [(n, x)], bm_set n g1 m)
                | _, _ =>
                    '(b, l, w, m2) <- bm_loop_f f force t (bm_set n g1 m) ;;
                    Ok (b, match a with Some x => (n, x) :: l | None => l end, w, m2)
                end
            end
        end
    end.
  Definition bm_pushout_f (f : option (name * pfail)) (force : bool) (ord : list name -> list name) (m : bmulti) :
      outcome (bool * list (name * adata) * list (name * adata) * bmulti) := bm_loop_f f force (ord (map fst m)) m.

  Section Hash.
    Variable hash : name -> Z.
    (** multi_aggregator::push, multi_aggregator.cpp:35-51 *)
    Definition ma_push_f (e : penv) (n : name) (d : rdata) (f : option mfail) (m : multi) :
        outcome (option bool * list (name * adata) * list (name * adata) * multi) :=
      match f with
      | Some MfStart => Ok (None, [], [], m)
      | _ =>
          i <- ma_pos hash n m ;; b <- ma_shard i m ;;
          '(r, l, w, b1) <- bm_push_f (ma_agg (mu_opt m)) e n d f b ;;
          Ok (r, l, w, ma_put i b1 m)
      end.
    (** multi_aggregator::multi_push, multi_aggregator.cpp:53-58: bad_alloc leaves the loop; [f]: which push fails, and how *)
    Fixpoint ma_multi_push_f (ps : list (penv * (name * rdata))) (f : option (nat * mfail)) (m : multi) :
        outcome (bool * list (name * adata) * list (name * adata) * multi) :=
      match ps with
      | [] => Ok (false, [], [], m)
      | (e, (n, d)) :: t =>
          '(r, l, w, m1) <- ma_push_f e n d (match f with Some (O, x) => Some x | _ => None end) m ;;
          match r with
          | None => Ok (true, l, w, m1)
          | Some _ =>
              '(b, l2, w2, m2) <- ma_multi_push_f t (match f with Some (S i, x) => Some (i, x) | _ => None end) m1 ;;
              Ok (b, l ++ l2, w2, m2)
          end
      end.
    (** multi_aggregator::pushout, multi_aggregator.cpp:70-79; force_pushout, 81-90 *)
    Fixpoint ma_shards_f (f : option (name * pfail)) (force : bool) (ord : list name -> list name) (bs : list bmulti) :
        outcome (bool * list (name * adata) * list (name * adata) * list bmulti) :=
      match bs with
      | [] => Ok (false, [], [], [])
      | b :: t =>
          '(r, l, w, b1) <- bm_pushout_f f force ord b ;;
          if (r : bool) then Ok (true, l, w, b1 :: t)
          else '(r2, l2, w2, t1) <- ma_shards_f f force ord t ;; Ok (r2, l ++ l2, w2, b1 :: t1)
      end.
    Definition ma_pushout_f (f : option (name * pfail)) (force : bool) (ord : list name -> list name) (m : multi) :
        outcome (bool * list (name * adata) * list (name * adata) * multi) :=
      '(r, l, w, bs) <- ma_shards_f f force ord (mu_list m) ;; Ok (r, l, w, mk_multi (mu_opt m) bs).
  End Hash.
End WithNth.

(** Public calls, with the allocation that fails in each, if any. *)
Inductive fmop :=
| FmPush (e : penv) (n : name) (d : rdata) (f : option mfail)
| FmMulti (ps : list (penv * (name * rdata))) (f : option (nat * mfail))
| FmDel (n : name)
| FmPushout (force : bool) (ord : list name -> list name) (f : option (name * pfail))
| FmSize.
(** How a call ends, with the records the handler was given; [lost]: the records destroyed, which nobody sees. *)
Inductive fmout :=
| FmAns (b : bool) (l : list (name * adata))
| FmRecs (l : list (name * adata))
| FmSizes (count data_size : nat)
| FmThrew (l lost : list (name * adata)).

Section Run.
  Variable ne : nat -> list Z -> list Z.
  Variable hash : name -> Z.
  Definition fm_do (op : fmop) (m : multi) : outcome (fmout * multi) :=
    match op with
    | FmPush e n d f =>
        '(r, l, w, m1) <- ma_push_f ne hash e n d f m ;; Ok (match r with None => FmThrew l w | Some b => FmAns b l end, m1)
    | FmMulti ps f => '(r, l, w, m1) <- ma_multi_push_f ne hash ps f m ;; Ok (if (r : bool) then FmThrew l w else FmAns true l, m1)
    | FmDel n => '(b, m1) <- ma_del hash n m ;; Ok (FmAns b [], m1)
    | FmPushout force ord f => '(r, l, w, m1) <- ma_pushout_f ne f force ord m ;; Ok (if (r : bool) then FmThrew l w else FmRecs l, m1)
    | FmSize => Ok (FmSizes (ma_size m) (ma_data_size m), m)
    end.
  (** A program that catches bad_alloc and goes on. *)
  Fixpoint fm_run (m : multi) (ops : list fmop) : outcome (list fmout * multi) :=
    match ops with
    | [] => Ok ([], m)
    | op :: t => '(o, m1) <- fm_do op m ;; '(os, m2) <- fm_run m1 t ;; Ok (o :: os, m2)
    end.
End Run.
