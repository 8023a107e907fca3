(** Aggregators that share a pool of buffers, with the memory made explicit: reducer.{hpp,cpp}, separator.{hpp,cpp},
    basic_aggregator.{hpp,cpp} and pool.hpp with rows that are pointers (data_ptr, api/types.hpp) into a heap.  One thread. *)
From Coq Require Import ZArith List Bool Arith.
From Verif Require Import Base ModelTypes ModelAvg ModelReducer ModelSeparator SpecSeparator ModelAggregator SpecAggregator.
Import ListNotations.
Local Open Scope Z_scope.

(** std::vector<value_type> with its capacity, which follows libstdc++ where the standard leaves it open. *)
Record vec := mk_vec { v_data : list Z; v_cap : nat }.
Definition v_push_back (x : Z) (v : vec) : vec :=
  let n := length (v_data v) in mk_vec (v_data v ++ [x]) (if (n <? v_cap v)%nat then v_cap v else (n + Nat.max n 1)%nat).
Definition v_reserve (n : nat) (v : vec) : vec := mk_vec (v_data v) (Nat.max (v_cap v) n).
Definition v_resize (n : nat) (v : vec) : vec :=
  let s := length (v_data v) in
  mk_vec (firstn n (v_data v) ++ repeat 0 (n - s)) (if (n <=? v_cap v)%nat then v_cap v else (s + Nat.max s (n - s))%nat).
Definition v_shrink_to_fit (v : vec) : vec := mk_vec (v_data v) (length (v_data v)).
Definition v_clear (v : vec) : vec := mk_vec [] (v_cap v).
Definition v_copy (v : vec) : vec := mk_vec (v_data v) (length (v_data v)).
(** The elements are permuted or overwritten in place. *)
Definition v_assign (d : list Z) (v : vec) : vec := mk_vec d (v_cap v).

(** The heap ([None]: deleted) and the pool (pool.hpp:91-93; the head of [m_pool] is its back). *)
Record mem := mk_mem { m_item : nat; m_max : nat; m_pool : list nat; m_heap : list (option vec) }.
(** pool::pool, pool.hpp:19-23 *)
Definition mem_new (item max : nat) : mem := mk_mem item max [] [].
Definition m_set_heap (h : list (option vec)) (m : mem) : mem := mk_mem (m_item m) (m_max m) (m_pool m) h.
Definition m_set_pool (p : list nat) (m : mem) : mem := mk_mem (m_item m) (m_max m) p (m_heap m).
(** Using or deleting a deleted vector is undefined. *)
Definition h_get (b : nat) (m : mem) : outcome vec := match nth_error (m_heap m) b with Some (Some v) => Ok v | _ => Ub end.
Definition h_put (b : nat) (v : vec) (m : mem) : outcome mem := _ <- h_get b m ;; Ok (m_set_heap (set_nth b (Some v) (m_heap m)) m).
Definition h_delete (b : nat) (m : mem) : outcome mem := _ <- h_get b m ;; Ok (m_set_heap (set_nth b None (m_heap m)) m).
Definition h_new (v : vec) (m : mem) : nat * mem := (length (m_heap m), m_set_heap (m_heap m ++ [Some v]) m).
Fixpoint h_delete_all (bs : list nat) (m : mem) : outcome mem :=
  match bs with [] => Ok m | b :: t => m1 <- h_delete b m ;; h_delete_all t m1 end.
Fixpoint h_load (bs : list nat) (m : mem) : outcome (list (list Z)) :=
  match bs with [] => Ok [] | b :: t => v <- h_get b m ;; vs <- h_load t m ;; Ok (v_data v :: vs) end.
(** The same vector twice among the rows: the code assumes it away. *)
Fixpoint distinct (l : list nat) : bool := match l with [] => true | x :: t => negb (existsb (Nat.eqb x) t) && distinct t end.

(** allocator::create, allocator.hpp:22-27, over pool::create, pool.hpp:49-65.  An allocator without a pool (allocator.hpp:26, 33) acts
    like a pool with item_size and pool_size 0. *)
Definition a_create (m : mem) : nat * mem :=
  match m_pool m with
  | [] => h_new (v_clear (v_resize (m_item m) (mk_vec [] 0))) m
  | b :: r => (b, m_set_pool r m)
  end.
(** allocator::free, allocator.hpp:29-34, over pool::free, pool.hpp:67-88, as called in reducer.cpp:265: what it gives back is dropped *)
Definition a_free (b : nat) (m : mem) : outcome mem :=
  if (length (m_pool m) =? m_max m)%nat then h_delete b m
  else
    v <- h_get b m ;;
    let v1 := if (m_item m <? v_cap v)%nat then v_shrink_to_fit (v_resize (m_item m) v) else v_resize (m_item m) v in
    m1 <- h_put b (v_clear v1) m ;; Ok (m_set_pool (b :: m_pool m1) m1).
Fixpoint a_free_all (bs : list nat) (m : mem) : outcome mem :=
  match bs with [] => Ok m | b :: t => m1 <- a_free b m ;; a_free_all t m1 end.

(** class reducer, reducer.hpp:72-83: [pr_core] has all members but _data (its r_data is not used), [pr_rows] is _data. *)
Record pred := mk_pred { pr_core : reducer; pr_rows : list nat }.
Definition set_data (d : list (list Z)) (r : reducer) : reducer :=
  mk_reducer (r_opt r) (r_cur r) (r_empty r) (r_min r) (r_max r) (r_lossy r) (r_total r) (r_avgc r) (r_avg r) d.
Definition p_new (o : ropts) : pred := mk_pred (reducer_new o) [].
Fixpoint last_row (l : list nat) : option nat := match l with [] => None | [x] => Some x | _ :: t => last_row t end.

(** reducer::add_, reducer.cpp:270-296 *)
Definition p_add1 (v : Z) (p : pred) (m : mem) : outcome (pred * mem) :=
  let c := pr_core p in
  let o := r_opt c in
  let rows := pr_rows p in
  let core lossy := mk_reducer o (r_cur c) (r_empty c) (Z.min (r_min c) v) (Z.max (r_max c) v) lossy (r_total c)
                      (u64 (r_avgc c + 1)) (avg_step (r_avg c) (u64 (r_avgc c + 1)) v) [] in
  match last_row rows with
  | None =>
      if (length rows =? o_levels o)%nat || (o_limit o =? 0)%nat then Ok (mk_pred (core (u64 (r_lossy c + 1))) rows, m)
      else
        let '(b, m1) := a_create m in
        x <- h_get b m1 ;;
        m2 <- h_put b (v_push_back v (v_reserve (o_limit o) x)) m1 ;;
        Ok (mk_pred (core (r_lossy c)) [b], m2)
  | Some l =>
      y <- h_get l m ;;
      if (length (v_data y) =? o_limit o)%nat then
        if (length rows =? o_levels o)%nat || (o_limit o =? 0)%nat then Ok (mk_pred (core (u64 (r_lossy c + 1))) rows, m)
        else
          m0 <- (if rmode_eqb (r_cur c) Sorting then h_put l (v_assign (isort (v_data y)) y) m else Ok m) ;;
          let '(b, m1) := a_create m0 in
          x <- h_get b m1 ;;
          m2 <- h_put b (v_push_back v (v_reserve (o_limit o) x)) m1 ;;
          Ok (mk_pred (core (r_lossy c)) (rows ++ [b]), m2)
      else
        m1 <- h_put l (v_push_back v y) m ;; Ok (mk_pred (core (r_lossy c)) rows, m1)
  end.
Fixpoint p_add_all (vs : list Z) (p : pred) (m : mem) : outcome (pred * mem) :=
  match vs with [] => Ok (p, m) | v :: t => '(p1, m1) <- p_add1 v p m ;; p_add_all t p1 m1 end.
(** The add overloads, reducer.cpp:124-166 *)
Definition p_map (f : reducer -> reducer) (p : pred) : pred := mk_pred (f (pr_core p)) (pr_rows p).
Definition p_op (x : sample) (p : pred) (m : mem) : outcome (pred * mem) :=
  match x with
  | SmScalar _ v count => '(p1, m1) <- p_add1 v p m ;; Ok (p_map (r_account count (if 1 <? count then count - 1 else 0)) p1, m1)
  | SmArr _ vs count =>
      let n := Z.of_nat (length vs) in
      '(p1, m1) <- p_add_all vs p m ;; Ok (p_map (r_account count (if n <? count then count - n else 0)) p1, m1)
  | SmList _ vs => '(p1, m1) <- p_add_all vs p m ;; Ok (p_map (r_account (Z.of_nat (length vs)) 0) p1, m1)
  | SmRed d =>
      let i := rd_info d in
      let n := Z.of_nat (length (rd_data d)) in
      '(p1, m1) <- p_add_all (rd_data d) p m ;;
      let p2 := p_map (r_account (ri_count i) (if n <? ri_count i then ri_count i - n else 0)) p1 in
      let p3 := if negb (ri_min i =? 0) then p_map (r_minmax (ri_min i)) p2 else p2 in
      Ok (if negb (ri_max i =? 0) then p_map (r_minmax (ri_max i)) p3 else p3, m1)
  end.

(** A record and the capacity of its vector. *)
Record prec := mk_prec { pc_rec : adata; pc_cap : nat }.
Definition pc_map (f : adata -> adata) (x : prec) : prec := mk_prec (f (pc_rec x)) (pc_cap x).

(** reducer::clear, reducer.cpp:106-116, and the destructor: the rows are deleted *)
Definition p_clear (p : pred) (m : mem) : outcome (pred * mem) := m1 <- h_delete_all (pr_rows p) m ;; Ok (mk_pred (r_clear (pr_core p)) [], m1).
(** reducer::clone, reducer.cpp:29-42 *)
Fixpoint p_copy (bs : list nat) (m : mem) : outcome (list nat * mem) :=
  match bs with
  | [] => Ok ([], m)
  | b :: t => v <- h_get b m ;; let '(b1, m1) := h_new (v_copy v) m in '(l, m2) <- p_copy t m1 ;; Ok (b1 :: l, m2)
  end.
Definition p_clone (p : pred) (m : mem) : outcome (pred * mem) :=
  '(l, m1) <- p_copy (pr_rows p) m ;; Ok (mk_pred (r_clone (pr_core p)) l, m1).

Section WithNth.
  Variable ne : nat -> list Z -> list Z.

  (** reducer::reduce, reducer.cpp:222-268.  The rows are distinct vectors, so thinning works as on values (ModelReducer.r_reduce); of
      the changed rows the first is stored, the others are given up at once (264-267). *)
  Definition p_reduce (p : pred) (m : mem) : outcome (pred * mem) :=
    match pr_rows p with
    | [] => Ok (p, m)
    | b :: others =>
        if negb (distinct (pr_rows p)) then Ub
        else
          d <- h_load (pr_rows p) m ;;
          r <- r_reduce ne (set_data d (pr_core p)) ;;
          y <- h_get b m ;;
          m1 <- h_put b (v_assign (match r_data r with [] => [] | x :: _ => x end) y) m ;;
          m2 <- a_free_all others m1 ;;
          Ok (mk_pred (set_data [] r) [b], m2)
    end.
  (** reducer::detach, reducer.cpp:174-190 *)
  Definition p_detach (p : pred) (m : mem) : outcome (option prec * pred * mem) :=
    if r_empty (pr_core p) then Ok (None, p, m)
    else
      '(p1, m1) <- p_reduce p m ;;
      '(v, m2) <- match pr_rows p1 with
                  | [] => Ok (mk_vec [] 0, m1)
                  | b :: _ => y <- h_get b m1 ;; m2 <- h_put b (mk_vec [] 0) m1 ;; Ok (y, m2) (* swap *)
                  end ;;
      let c := pr_core p1 in
      avg <- f64_to_i64 (r_avg c) ;;
      '(p2, m3) <- p_clear p1 m2 ;;
      Ok (Some (mk_prec (mk_adata (mk_rinfo 0 (r_total c) (r_lossy c) (r_min c) (r_max c) avg) perc0 (v_data v)) (v_cap v)), p2, m3).
  (** reducer::get_reduced, reducer.cpp:168-172 *)
  Definition p_get_reduced (p : pred) (m : mem) : outcome (option prec * mem) :=
    '(c, m1) <- p_clone p m ;; '(a, c1, m2) <- p_detach c m1 ;; '(_, m3) <- p_clear c1 m2 ;; Ok (a, m3).
End WithNth.

(** class separator, separator.hpp:75-79 *)
Record psep := mk_psep { t_red : pred; t_step : Z; t_next : Z; t_res : resolution; t_list : list prec }.
(** separator::separator, separator.cpp:5-18 *)
Definition t_new (o : sopts) (clock rnd ts : Z) : outcome psep :=
  s <- sep_new o clock rnd ts ;; Ok (mk_psep (p_new (so_red o)) (s_step s) (s_next s) (s_res s) []).

(** class basic_aggregator, basic_aggregator.hpp:94-98 *)
Record pagg := mk_pagg { a_sep : psep; a_out : nat; a_enabled : bool; a_list : list prec; a_id : bool }.
Definition a_set_sep (s : psep) (g : pagg) : pagg := mk_pagg s (a_out g) (a_enabled g) (a_list g) (a_id g).
(** basic_aggregator::basic_aggregator, basic_aggregator.cpp:6-11 *)
Definition a_new (o : aopts) (clock rnd ts : Z) : outcome pagg :=
  s <- t_new (ao_sep o) clock rnd ts ;; Ok (mk_pagg s (ao_out o) true [] true).
Record pout := mk_pout { po_bool : option bool; po_handler : list prec; po_popped : option prec }.

Section Agg.
  Variable ne : nat -> list Z -> list Z.

  (** separator::separate, separator.cpp:147-167 *)
  Fixpoint t_loop (fuel : nat) (step ts next : Z) (p : pred) (m : mem) : outcome (list prec * pred * Z * mem) :=
    if next <=? ts then
      match fuel with
      | O => Exn
      | S fuel' =>
          '(a, p1, m1) <- p_detach ne p m ;;
          rec <- match a with
                 | None => Ok []
                 | Some x => t <- chk (next - step) ;; Ok [pc_map (ad_set_ts t) x]
                 end ;;
          next1 <- chk (next + step) ;;
          '(recs, p2, next2, m2) <- t_loop fuel' step ts next1 p1 m1 ;;
          Ok (rec ++ recs, p2, next2, m2)
      end
    else Ok ([], p, next, m).
  Definition t_separate (clock ts : Z) (h force : bool) (s : psep) (m : mem) : outcome (bool * list prec * psep * mem) :=
    t <- get_ts (t_step s) (t_res s) clock ts ;;
    if negb force && (t <? t_next s) then Ok (false, [], s, m)
    else
      '(recs, p, next, m1) <- t_loop (sep_fuel (t_step s) t (t_next s)) (t_step s) t (t_next s) (t_red s) m ;;
      Ok (true, if h then recs else [], mk_psep p (t_step s) next (t_res s) (t_list s ++ if h then [] else recs), m1).
  (** separator::add and push, separator.cpp:26-96 *)
  Definition t_put (c1 c2 : Z) (h : bool) (x : sample) (s : psep) (m : mem) : outcome (bool * list prec * psep * mem) :=
    t <- get_ts (t_step s) (t_res s) c1 (sm_ts x) ;;
    '(_, recs, s1, m1) <- t_separate c2 t h false s m ;;
    cur <- chk (t_next s1 - t_step s1) ;;
    if t <? cur then Ok (false, recs, s1, m1)
    else '(p, m2) <- p_op x (t_red s1) m1 ;; Ok (true, recs, mk_psep p (t_step s1) (t_next s1) (t_res s1) (t_list s1), m2).
  (** separator::force_pop, separator.cpp:109-119 *)
  Definition t_force_pop (s : psep) (m : mem) : outcome (option prec * psep * mem) :=
    match t_list s with
    | a :: r => Ok (Some a, mk_psep (t_red s) (t_step s) (t_next s) (t_res s) r, m)
    | [] =>
        '(a, p, m1) <- p_detach ne (t_red s) m ;;
        let s1 := mk_psep p (t_step s) (t_next s) (t_res s) (t_list s) in
        match a with
        | Some x => t <- chk (t_next s - t_step s) ;; Ok (Some (pc_map (ad_set_ts t) x), s1, m1)
        | None => Ok (None, s1, m1)
        end
    end.
  (** separator::get_current, separator.cpp:121-127 *)
  Definition t_get_current (s : psep) (m : mem) : outcome (option prec * mem) :=
    '(a, m1) <- p_get_reduced ne (t_red s) m ;;
    match a with
    | Some x => t <- chk (t_next s - t_step s) ;; Ok (Some (pc_map (ad_set_ts t) x), m1)
    | None => Ok (None, m1)
    end.
  (** separator::clear, separator.cpp:233-239 *)
  Definition t_clear (clock ts : Z) (s : psep) (m : mem) : outcome (psep * mem) :=
    t <- get_ts (t_step s) (t_res s) clock ts ;;
    next <- chk (t + t_step s) ;;
    '(p, m1) <- p_clear (t_red s) m ;;
    Ok (mk_psep p (t_step s) next (t_res s) [], m1).

  (** aggregate2_ and reduce_, basic_aggregator.cpp:204-236, 260-277: neither changes the capacity *)
  Definition a_finish (out : nat) (x : prec) : outcome prec := d <- g_finish ne out (pc_rec x) ;; Ok (mk_prec d (pc_cap x)).
  Fixpoint a_finish_all (out : nat) (l : list prec) : outcome (list prec) :=
    match l with
    | [] => Ok []
    | x :: t => d <- a_finish out x ;; ds <- a_finish_all out t ;; Ok (d :: ds)
    end.
  (** basic_aggregator::aggregate0_, basic_aggregator.cpp:238-246 *)
  Definition a_aggregate0_ (g : pagg) : outcome pagg :=
    ds <- a_finish_all (a_out g) (t_list (a_sep g)) ;;
    let s := a_sep g in
    Ok (mk_pagg (mk_psep (t_red s) (t_step s) (t_next s) (t_res s) []) (a_out g) (a_enabled g) (a_list g ++ ds) (a_id g)).

  (** The public calls, basic_aggregator.cpp:33-140, 157-160, 184-189, as in SpecAggregator.g_call *)
  Definition a_add (x : sample) (c1 c2 : Z) (g : pagg) (m : mem) : outcome (bool * pagg * mem) :=
    if negb (a_enabled g) then Ok (true, g, m)
    else
      '(b, _, s, m1) <- t_put c1 c2 false x (a_sep g) m ;;
      if negb b then Ok (false, a_set_sep s g, m1)
      else g1 <- a_aggregate0_ (a_set_sep s g) ;; Ok (true, g1, m1).
  Definition a_call (op : gop) (g : pagg) (m : mem) : outcome (pout * pagg * mem) :=
    match op with
    | GoAdd x c1 c2 =>
        match x with
        | SmList _ _ => Exn
        | _ => '(b, g1, m1) <- a_add x c1 c2 g m ;; Ok (mk_pout (Some b) [] None, g1, m1)
        end
    | GoPush x h c1 c2 =>
        match x with
        | SmList _ _ => Exn
        | _ =>
            if negb (a_enabled g) then Ok (mk_pout (Some true) [] None, g, m)
            else if negb h then '(b, g1, m1) <- a_add x c1 c2 g m ;; Ok (mk_pout (Some b) [] None, g1, m1)
            else
              '(b, recs, s, m1) <- t_put c1 c2 true x (a_sep g) m ;;
              ds <- a_finish_all (a_out g) recs ;;
              Ok (mk_pout (Some b) ds None, a_set_sep s g, m1)
        end
    | GoSeparate ts h f c =>
        '(b, recs, s, m1) <- t_separate c ts h f (a_sep g) m ;;
        g1 <- a_aggregate0_ (a_set_sep s g) ;; Ok (mk_pout (Some b) recs None, g1, m1)
    | GoPop =>
        match a_list g with
        | [] => Ok (mk_pout None [] None, g, m)
        | a :: t => Ok (mk_pout None [] (Some a), mk_pagg (a_sep g) (a_out g) (a_enabled g) t (a_id g), m)
        end
    | GoForcePop =>
        '(a, s, m1) <- t_force_pop (a_sep g) m ;;
        match a with
        | None => Ok (mk_pout None [] None, a_set_sep s g, m1)
        | Some x => d <- a_finish (a_out g) x ;; Ok (mk_pout None [] (Some d), a_set_sep s g, m1)
        end
    | GoCurrent =>
        '(a, m1) <- t_get_current (a_sep g) m ;;
        match a with
        | None => Ok (mk_pout None [] None, g, m1)
        | Some x => d <- a_finish (a_out g) x ;; Ok (mk_pout None [] (Some d), g, m1)
        end
    | GoEnable v => Ok (mk_pout None [] None, mk_pagg (a_sep g) (a_out g) v (a_list g) (a_id g), m)
    | GoClear ts c =>
        '(s, m1) <- t_clear c ts (a_sep g) m ;; Ok (mk_pout None [] None, mk_pagg s (a_out g) (a_enabled g) [] false, m1)
    end.
End Agg.

(** separator::size(data_size, capacity), separator.cpp:216-231, with reducer::size and capacity, reducer.cpp:72-93 *)
Fixpoint h_sum (f : vec -> nat) (bs : list nat) (m : mem) : outcome nat :=
  match bs with [] => Ok 0%nat | b :: t => v <- h_get b m ;; n <- h_sum f t m ;; Ok (f v + n)%nat end.
Definition sum_of (f : prec -> nat) (l : list prec) : nat := fold_right (fun x n => (f x + n)%nat) 0%nat l.
Definition rec_size (x : prec) : nat := length (ad_data (pc_rec x)).
Definition t_size (s : psep) (m : mem) : outcome (nat * nat) :=
  d <- h_sum (fun v => length (v_data v)) (pr_rows (t_red s)) m ;;
  c <- h_sum v_cap (pr_rows (t_red s)) m ;;
  Ok (sum_of rec_size (t_list s) + d, sum_of pc_cap (t_list s) + c)%nat.
(** basic_aggregator::size(data_size, capacity), basic_aggregator.cpp:167-181: data_size and capacity, from 0; line 177 adds the size of
    the records, not their capacity *)
Definition a_size (g : pagg) (m : mem) : outcome (nat * nat) :=
  '(d, c) <- t_size (a_sep g) m ;; Ok (sum_of rec_size (a_list g) + d, sum_of rec_size (a_list g) + c)%nat.

(** Several aggregators with allocators of one pool (aggregator_registry.cpp:93); [None]: destroyed. *)
Inductive bop := BNew (o : aopts) (clock rnd ts : Z) | BCall (i : nat) (op : gop) | BDel (i : nat).
Record store := mk_store { b_aggs : list (option pagg); b_mem : mem }.
Definition b_new (item max : nat) : store := mk_store [] (mem_new item max).
Section Store.
  Variable ne : nat -> list Z -> list Z.
  Definition b_step (op : bop) (s : store) : outcome (option pout * store) :=
    match op with
    | BNew o clock rnd ts => g <- a_new o clock rnd ts ;; Ok (None, mk_store (b_aggs s ++ [Some g]) (b_mem s))
    | BCall i op =>
        match nth_error (b_aggs s) i with
        | Some (Some g) => '(o, g1, m1) <- a_call ne op g (b_mem s) ;; Ok (Some o, mk_store (set_nth i (Some g1) (b_aggs s)) m1)
        | _ => Ok (None, s)
        end
    | BDel i =>
        match nth_error (b_aggs s) i with
        | Some (Some g) => '(_, m1) <- p_clear (t_red (a_sep g)) (b_mem s) ;; Ok (None, mk_store (set_nth i None (b_aggs s)) m1)
        | _ => Ok (None, s)
        end
    end.
  Fixpoint b_run (s : store) (ops : list bop) : outcome (list (option pout) * store) :=
    match ops with
    | [] => Ok ([], s)
    | op :: t => '(o, s1) <- b_step op s ;; '(os, s2) <- b_run s1 t ;; Ok (o :: os, s2)
    end.
End Store.
