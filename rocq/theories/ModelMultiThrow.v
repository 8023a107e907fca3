(** A multi_aggregator whose handler throws (wrtstat/multi_aggregator/).  ModelMulti assumes that it does not.  [th n a]: whether the
    handler, given the record [a] with the name [n], throws; a null handler throws on everything (std::bad_function_call).  No
    function on the way catches anything; the lock_guard of the shard releases its mutex. *)
From Coq Require Import ZArith List Bool Arith Ascii.
From Verif Require Import Base ModelTypes ModelReducer SpecReducer ModelSeparator SpecSeparator ModelAggregator SpecAggregator ModelRegistry
  ModelMulti ModelThrow.
Import ListNotations.
Local Open Scope Z_scope.

(** How a call ends, with the records the handler was given until then, in order. *)
Inductive tmout :=
| TmAns (b : bool) (l : list (name * adata))
| TmRecs (l : list (name * adata))
| TmSizes (count data_size : nat)
| TmThrew (l : list (name * adata)).   (* the exception of the handler leaves the call *)
(** Public calls; each call has its own handler. *)
Inductive tmop :=
| TmPush (e : penv) (n : name) (d : rdata) (th : name -> adata -> bool)
| TmMulti (ps : list (penv * (name * rdata))) (th : name -> adata -> bool)
| TmDel (n : name)
| TmPushout (force : bool) (ord : list name -> list name) (th : name -> adata -> bool)
| TmSize.

Section WithNth.
  Variable ne : nat -> list Z -> list Z.

  (** basic_multi_aggregator::push, basic_multi_aggregator.cpp:18-40: the aggregator is in the map (21-32) before it is pushed to (34);
      the lambda (34-39) passes the exception of the handler on.  [None]: it threw. *)
  Definition bm_push_t (o : aopts) (e : penv) (n : name) (d : rdata) (th : name -> adata -> bool) (m : bmulti) :
      outcome (option bool * list (name * adata) * bmulti) :=
    g <- match bm_find n m with
         | Some g => Ok g
         | None => agg_new o (pe_clock e) (pe_rnd e) (ri_ts (rd_info d))
         end ;;
    '(r, g1) <- tg_push ne (SmRed d) (fun a => th n (only_reduced a)) (pe_c1 e) (pe_c2 e) g ;;
    let recs := match r with TRet x => out_handler x | TThrew l => l end in
    Ok (match r with TRet x => out_bool x | TThrew _ => None end, map (fun a => (n, only_reduced a)) recs, bm_set n g1 m).
  (** pushout, basic_multi_aggregator.cpp:57-69, and force_pushout, 80-92: the record has left the aggregator when the handler is
      called.  The boolean: it threw. *)
  Fixpoint bm_loop_t (th : name -> adata -> bool) (force : bool) (ks : list name) (m : bmulti) :
      outcome (bool * list (name * adata) * bmulti) :=
    match ks with
    | [] => Ok (false, [], m)
    | n :: t =>
        match bm_find n m with
        | None => bm_loop_t th force t m
        | Some g =>
            '(a, g1) <- (if force then g_force_pop ne g else Ok (g_pop g)) ;;
            match a with
            | None => bm_loop_t th force t (bm_set n g1 m)
            | Some x =>
                if th n x then Ok (true, [(n, x)], bm_set n g1 m)
                else '(b, l, m2) <- bm_loop_t th force t (bm_set n g1 m) ;; Ok (b, (n, x) :: l, m2)
            end
        end
    end.
  Definition bm_pushout_t (th : name -> adata -> bool) (force : bool) (ord : list name -> list name) (m : bmulti) :
      outcome (bool * list (name * adata) * bmulti) := bm_loop_t th force (ord (map fst m)) m.

  Section Hash.
    Variable hash : name -> Z.
    (** multi_aggregator::push, multi_aggregator.cpp:35-51 *)
    Definition ma_push_t (e : penv) (n : name) (d : rdata) (th : name -> adata -> bool) (m : multi) :
        outcome (option bool * list (name * adata) * multi) :=
      i <- ma_pos hash n m ;; b <- ma_shard i m ;;
      '(r, l, b1) <- bm_push_t (ma_agg (mu_opt m)) e n d th b ;;
      Ok (r, l, ma_put i b1 m).
    (** multi_aggregator::multi_push, multi_aggregator.cpp:53-58: the exception leaves the loop *)
    Fixpoint ma_multi_push_t (ps : list (penv * (name * rdata))) (th : name -> adata -> bool) (m : multi) :
        outcome (bool * list (name * adata) * multi) :=
      match ps with
      | [] => Ok (false, [], m)
      | (e, (n, d)) :: t =>
          '(r, l, m1) <- ma_push_t e n d th m ;;
          match r with
          | None => Ok (true, l, m1)
          | Some _ => '(b, l2, m2) <- ma_multi_push_t t th m1 ;; Ok (b, l ++ l2, m2)
          end
      end.
    (** multi_aggregator::pushout, multi_aggregator.cpp:70-79; force_pushout, 81-90 *)
    Fixpoint ma_shards_t (th : name -> adata -> bool) (force : bool) (ord : list name -> list name) (bs : list bmulti) :
        outcome (bool * list (name * adata) * list bmulti) :=
      match bs with
      | [] => Ok (false, [], [])
      | b :: t =>
          '(r, l, b1) <- bm_pushout_t th force ord b ;;
          if (r : bool) then Ok (true, l, b1 :: t)
          else '(r2, l2, t1) <- ma_shards_t th force ord t ;; Ok (r2, l ++ l2, b1 :: t1)
      end.
    Definition ma_pushout_t (th : name -> adata -> bool) (force : bool) (ord : list name -> list name) (m : multi) :
        outcome (bool * list (name * adata) * multi) :=
      '(r, l, bs) <- ma_shards_t th force ord (mu_list m) ;; Ok (r, l, mk_multi (mu_opt m) bs).

    Definition tm_do (op : tmop) (m : multi) : outcome (tmout * multi) :=
      match op with
      | TmPush e n d th =>
          '(r, l, m1) <- ma_push_t e n d th m ;; Ok (match r with None => TmThrew l | Some b => TmAns b l end, m1)
      | TmMulti ps th => '(r, l, m1) <- ma_multi_push_t ps th m ;; Ok (if (r : bool) then TmThrew l else TmAns true l, m1)
      | TmDel n => '(b, m1) <- ma_del hash n m ;; Ok (TmAns b [], m1)
      | TmPushout force ord th => '(r, l, m1) <- ma_pushout_t th force ord m ;; Ok (if (r : bool) then TmThrew l else TmRecs l, m1)
      | TmSize => Ok (TmSizes (ma_size m) (ma_data_size m), m)
      end.
    (** A program that catches what leaves a call and goes on. *)
    Fixpoint tm_run (m : multi) (ops : list tmop) : outcome (list tmout * multi) :=
      match ops with
      | [] => Ok ([], m)
      | op :: t => '(o, m1) <- tm_do op m ;; '(os, m2) <- tm_run m1 t ;; Ok (o :: os, m2)
      end.
  End Hash.
End WithNth.
