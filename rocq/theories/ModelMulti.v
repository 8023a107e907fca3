(** wrtstat/multi_aggregator/{basic_multi_aggregator,multi_aggregator}.{hpp,cpp}; sequential (each shard is used under
    its own mutex).  The pool only recycles cleared buffers (ModelPool). *)
From Coq Require Import ZArith List Bool Arith Ascii.
From Verif Require Import Base ModelTypes ModelAvg ModelReducer ModelSeparator ModelAggregator ModelRegistry.
Import ListNotations.
Local Open Scope Z_scope.

(** class basic_multi_aggregator: _aggregator_map, basic_multi_aggregator.hpp:43 *)
Definition bmulti := list (name * agg).
Definition bm_find (n : name) (m : bmulti) : option agg := m_find name_eqb n m.
(** The aggregator is updated in place; a missing name is inserted. *)
Definition bm_set (n : name) (g : agg) (m : bmulti) : bmulti :=
  match bm_find n m with
  | None => (n, g) :: m
  | Some _ => map (fun p => if name_eqb n (fst p) then (fst p, g) else p) m
  end.

(** Clock and random number read by the constructor, and the two clock readings of the push. *)
Record penv := mk_penv { pe_clock : Z; pe_rnd : Z; pe_c1 : Z; pe_c2 : Z }.

(** static_cast<reduced_data&>( *p ) = std::move( *ag ), basic_multi_aggregator.cpp:37: the percentiles of the request
    keep their default 0 (aggregated_perc.hpp) *)
Definition only_reduced (a : adata) : adata := mk_adata (ad_info a) perc0 (ad_data a).

Section WithNth.
  Variable ne : nat -> list Z -> list Z.

  (** basic_multi_aggregator::push, basic_multi_aggregator.cpp:18-40 and 52-55: the answer and the named records given
      to the handler; [h]: the handler is not null, calling a null one throws.  The aggregator is given a handler in any
      case. *)
  Definition bm_push (o : aopts) (e : penv) (n : name) (d : rdata) (h : bool) (m : bmulti) :
      outcome (bool * list (name * adata) * bmulti) :=
    g <- match bm_find n m with
         | Some g => Ok g
         | None => agg_new o (pe_clock e) (pe_rnd e) (ri_ts (rd_info d))
         end ;;
    '(b, recs, g1) <- g_push_red ne (pe_c1 e) (pe_c2 e) d true g ;;
    match h, recs with
    | false, _ :: _ => Exn
    | _, _ => Ok (b, map (fun a => (n, only_reduced a)) recs, bm_set n g1 m)
    end.

  (** basic_multi_aggregator::del, basic_multi_aggregator.cpp:42-49 *)
  Definition bm_del (n : name) (m : bmulti) : bool * bmulti :=
    match bm_find n m with
    | None => (false, m)
    | Some _ => (true, m_erase name_eqb n m)
    end.

  (** basic_multi_aggregator::pushout ([force] = false), basic_multi_aggregator.cpp:57-69, and force_pushout, 80-92, over
      the keys in the order in which the map is traversed *)
  Fixpoint bm_loop (force h : bool) (ks : list name) (m : bmulti) : outcome (list (name * adata) * bmulti) :=
    match ks with
    | [] => Ok ([], m)
    | n :: t =>
        match bm_find n m with
        | None => bm_loop force h t m
        | Some g =>
            '(a, g1) <- (if force then g_force_pop ne g else Ok (g_pop g)) ;;
            l <- match a, h with
                 | Some x, true => Ok [(n, x)]
                 | Some _, false => Exn
                 | None, _ => Ok []
                 end ;;
            '(l2, m2) <- bm_loop force h t (bm_set n g1 m) ;;
            Ok (l ++ l2, m2)
        end
    end.
  (** The traversal order of the hash table is not modelled: [ord] gives some order of its keys. *)
  Definition bm_pushout (force h : bool) (ord : list name -> list name) (m : bmulti) : outcome (list (name * adata) * bmulti) :=
    bm_loop force h (ord (map fst m)) m.
  (** basic_multi_aggregator::size, basic_multi_aggregator.cpp:71-78: the returned value, and what is added to
      *data_size *)
  Definition bm_size (m : bmulti) : nat := length m.
  Definition bm_data_size (m : bmulti) : nat := list_sum (map (fun p => g_data_size (snd p)) m).

  (** class multi_aggregator, multi_aggregator.hpp; _hash is std::hash<std::string> *)
  Record maopts := mk_maopts { ma_agg : aopts; ma_hash : nat }.
  Record multi := mk_multi { mu_opt : maopts; mu_list : list bmulti }.
  (** multi_aggregator::initialize_, multi_aggregator.cpp:112-122 *)
  Definition ma_new (o : maopts) : multi := mk_multi o (repeat [] (ma_hash o)).

  Section Hash.
    Variable hash : name -> Z.
    (** multi_aggregator::get_pos_, multi_aggregator.cpp:107-110: remainder by zero is undefined *)
    Definition ma_pos (n : name) (m : multi) : outcome nat :=
      let hs := Z.of_nat (ma_hash (mu_opt m)) in
      if hs =? 0 then Ub else Ok (Z.to_nat (u64 (hash n) mod hs)).
    Definition ma_shard (i : nat) (m : multi) : outcome bmulti :=
      match nth_error (mu_list m) i with Some b => Ok b | None => Ub end.
    Definition ma_put (i : nat) (b : bmulti) (m : multi) : multi := mk_multi (mu_opt m) (set_nth i b (mu_list m)).

    (** multi_aggregator::push, multi_aggregator.cpp:35-51 *)
    Definition ma_push (e : penv) (n : name) (d : rdata) (h : bool) (m : multi) : outcome (bool * list (name * adata) * multi) :=
      i <- ma_pos n m ;; b <- ma_shard i m ;;
      '(r, l, b1) <- bm_push (ma_agg (mu_opt m)) e n d h b ;;
      Ok (r, l, ma_put i b1 m).
    (** multi_aggregator::multi_push, multi_aggregator.cpp:53-58 *)
    Fixpoint ma_multi_push (ps : list (penv * (name * rdata))) (h : bool) (m : multi) : outcome (bool * list (name * adata) * multi) :=
      match ps with
      | [] => Ok (true, [], m)
      | (e, (n, d)) :: t =>
          '(_, l, m1) <- ma_push e n d h m ;;
          '(r, l2, m2) <- ma_multi_push t h m1 ;;
          Ok (r, l ++ l2, m2)
      end.
    (** multi_aggregator::del, multi_aggregator.cpp:60-67 *)
    Definition ma_del (n : name) (m : multi) : outcome (bool * multi) :=
      i <- ma_pos n m ;; b <- ma_shard i m ;;
      let '(r, b1) := bm_del n b in Ok (r, ma_put i b1 m).
    (** multi_aggregator::pushout, multi_aggregator.cpp:70-79; force_pushout, 81-90 *)
    Fixpoint ma_shards (force h : bool) (ord : list name -> list name) (bs : list bmulti) : outcome (list (name * adata) * list bmulti) :=
      match bs with
      | [] => Ok ([], [])
      | b :: t =>
          '(l, b1) <- bm_pushout force h ord b ;;
          '(l2, t1) <- ma_shards force h ord t ;;
          Ok (l ++ l2, b1 :: t1)
      end.
    Definition ma_pushout (force h : bool) (ord : list name -> list name) (m : multi) : outcome (list (name * adata) * multi) :=
      '(l, bs) <- ma_shards force h ord (mu_list m) ;; Ok (l, mk_multi (mu_opt m) bs).
    (** multi_aggregator::size, multi_aggregator.cpp:92-103: the returned value, and what is added to *data_size *)
    Definition ma_size (m : multi) : nat := list_sum (map bm_size (mu_list m)).
    Definition ma_data_size (m : multi) : nat := list_sum (map bm_data_size (mu_list m)).
  End Hash.
End WithNth.
