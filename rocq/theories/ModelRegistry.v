(** wrtstat/system/dict.hpp, wrtstat/aggregator/aggregator_registry.{hpp,cpp}, wrtstat/wrtstat.{hpp,cpp}; sequential
    (the locking is modelled in ModelLocks).  The allocator/pool only recycles cleared buffers and is modelled in
    ModelPool.  Aggregators are owned by the registry array alone: a shared_ptr obtained from get_aggregator is used
    for one call and dropped. *)
From Coq Require Import ZArith List Bool Arith Ascii.
From Verif Require Import Base ModelTypes ModelAvg ModelReducer ModelSeparator ModelAggregator SpecReducer SpecSeparator SpecAggregator.
Import ListNotations.
Local Open Scope Z_scope.

(** std::string *)
Definition name := list ascii.
Definition name_eqb (a b : name) : bool := if list_eq_dec ascii_dec a b then true else false.

(** std::unordered_map as an association list without duplicate keys: find, insert (keeps an existing entry), erase. *)
Section Maps.
  Context {K V : Type} (eqb : K -> K -> bool).
  Fixpoint m_find (k : K) (m : list (K * V)) : option V :=
    match m with [] => None | (k', v) :: t => if eqb k k' then Some v else m_find k t end.
  Definition m_insert (k : K) (v : V) (m : list (K * V)) : list (K * V) :=
    match m_find k m with Some _ => m | None => (k, v) :: m end.
  Definition m_erase (k : K) (m : list (K * V)) : list (K * V) := filter (fun p => negb (eqb k (fst p))) m.
End Maps.

(** id_t is size_t; bad_id, api/types.hpp:16 *)
Definition bad_id : Z := two64 - 1.

(** class dict, members at dict.hpp:100-104 *)
Record dict := mk_dict {
  d_counter : Z; d_step : Z; d_dict : list (name * Z); d_index : list (Z * name); d_free : list Z }.
(** dict::dict, dict.hpp:15-19 *)
Definition d_new (init step : Z) : dict := mk_dict init step [] [] [].

(** dict::create_id, dict.hpp:21-41.  Which element *_free.begin() is depends on the hash table; [pick] chooses it. *)
Definition d_create_id (pick : nat) (n : name) (d : dict) : Z * dict :=
  match m_find name_eqb n (d_dict d) with
  | Some id => (id, d)
  | None =>
      let '(id, counter, free) :=
        match d_free d with
        | [] => let c := u64 (d_counter d + d_step d) in (c, c, [])
        | f0 :: _ => let id := nth (pick mod length (d_free d))%nat (d_free d) f0 in
                     (id, d_counter d, filter (fun x => negb (x =? id)) (d_free d))
        end in
      (id, mk_dict counter (d_step d) (m_insert name_eqb n id (d_dict d)) (m_insert Z.eqb id n (d_index d)) free)
  end.
(** dict::get_name, dict.hpp:43-49 *)
Definition d_get_name (id : Z) (d : dict) : name :=
  match m_find Z.eqb id (d_index d) with Some n => n | None => [] end.
(** dict::get_id, dict.hpp:51-57 *)
Definition d_get_id (n : name) (d : dict) : Z :=
  match m_find name_eqb n (d_dict d) with Some id => id | None => bad_id end.
(** dict::free(id), dict.hpp:59-69; the value returned is false on both paths *)
Definition d_free_id (id : Z) (d : dict) : bool * dict :=
  match m_find Z.eqb id (d_index d) with
  | None => (false, d)
  | Some n => (false, mk_dict (d_counter d) (d_step d) (m_erase name_eqb n (d_dict d)) (m_erase Z.eqb id (d_index d))
                              (if existsb (Z.eqb id) (d_free d) then d_free d else d_free d ++ [id]))
  end.
(** dict::id2pos, dict.hpp:87-90; dict::pos2id, dict.hpp:94-97: unsigned arithmetic, division by zero is undefined *)
Definition d_id2pos (id : Z) (d : dict) : outcome nat :=
  if d_step d =? 0 then Ub else Ok (Z.to_nat (u64 (id + d_step d - 1) / d_step d)).
Definition d_pos2id (pos : nat) (d : dict) : outcome Z :=
  if d_step d =? 0 then Ub else Ok (u64 (Z.of_nat pos * d_step d + d_counter d mod d_step d)).

(** registry_options, aggregator/options/registry_options.hpp:9-20, without pool_size *)
Record rgopts := mk_rgopts { rgo_agg : aopts; rgo_init : Z; rgo_step : Z; rgo_initializer : bool }.

(** An aggregator object: its identity and its state. *)
Definition obj := (nat * agg)%type.
(** class aggregator_registry, members at aggregator_registry.hpp:111-117.  [rg_next] numbers objects (std::make_shared
    never returns an address in use; the weak_ptr of a destroyed object never locks again). *)
Record registry := mk_registry {
  rg_opt : aopts; rg_arr : list (option obj); rg_dict : dict; rg_enabled : bool; rg_initializer : bool; rg_next : nat }.

(** aggregator_registry::aggregator_registry, aggregator_registry.cpp:6-11 *)
Definition rg_new (o : rgopts) : registry :=
  mk_registry (rgo_agg o) [] (d_new (rgo_init o) (rgo_step o)) true (rgo_initializer o) 0.

(** aggregators_count, aggregator_registry.cpp:13-17 *)
Definition rg_count (r : registry) : nat := length (rg_arr r).
(** get_name, aggregator_registry.cpp:65-69 *)
Definition rg_get_name (id : Z) (r : registry) : name := d_get_name id (rg_dict r).
(** set_initializer, aggregator_registry.cpp:71-75; [v]: the function is not null *)
Definition rg_set_initializer (v : bool) (r : registry) : registry :=
  mk_registry (rg_opt r) (rg_arr r) (rg_dict r) (rg_enabled r) v (rg_next r).

(** deque element assignment and resize *)
Fixpoint set_nth {A} (i : nat) (x : A) (l : list A) : list A :=
  match l, i with
  | [], _ => []
  | _ :: t, O => x :: t
  | y :: t, S i' => y :: set_nth i' x t
  end.
Definition resize {A} (n : nat) (l : list (option A)) : list (option A) := l ++ repeat None (n - length l).
Definition rg_set (pos : nat) (x : option obj) (r : registry) : registry :=
  mk_registry (rg_opt r) (set_nth pos x (rg_arr r)) (rg_dict r) (rg_enabled r) (rg_initializer r) (rg_next r).

(** get_aggregator(id), aggregator_registry.cpp:113-125: position and object *)
Definition rg_get (id : Z) (r : registry) : outcome (option (nat * obj)) :=
  if id =? bad_id then Ok None
  else
    pos <- d_id2pos id (rg_dict r) ;;
    match nth_error (rg_arr r) pos with
    | Some (Some ob) => Ok (Some (pos, ob))
    | _ => Ok None
    end.

(** Environment of one creation: clock and random number read by the aggregator's constructor, the two clock readings
    of an initial add, what the initializer returned if it was called, the choice of free id. *)
Record cenv := mk_cenv { ce_clock : Z; ce_rnd : Z; ce_c1 : Z; ce_c2 : Z; ce_init : option rdata; ce_pick : nat }.

Section WithNth.
  Variable ne : nat -> list Z -> list Z.

  (** create_aggregator, aggregator_registry.cpp:77-106 *)
  Definition rg_create (e : cenv) (n : name) (now : Z) (r : registry) : outcome (Z * registry) :=
    match n with
    | [] => Ok (bad_id, r)
    | _ =>
        let '(id, d) := d_create_id (ce_pick e) n (rg_dict r) in
        pos <- d_id2pos id d ;;
        let r1 := mk_registry (rg_opt r) (rg_arr r) d (rg_enabled r) (rg_initializer r) (rg_next r) in
        match nth_error (rg_arr r) pos with
        | Some (Some _) => Ok (id, r1)
        | _ =>
            g <- agg_new (rg_opt r) (ce_clock e) (ce_rnd e) now ;;
            g1 <- (if negb (rg_enabled r) then Ok (g_enable false g)
                   else if rg_initializer r then
                     match ce_init e with
                     | Some rd => '(_, g') <- g_add_red ne (ce_c1 e) (ce_c2 e) rd g ;; Ok g'
                     | None => Ok g
                     end
                   else Ok g) ;;
            Ok (id, mk_registry (rg_opt r) (set_nth pos (Some (rg_next r, g1)) (resize (S pos) (rg_arr r))) d
                                (rg_enabled r) (rg_initializer r) (S (rg_next r)))
        end
    end.

  (** What a call answers when there is no aggregator: add false, the others null. *)
  Definition no_out (op : gop) : sout := mk_sout (match op with GoAdd _ _ _ => Some false | _ => None end) [] None.
  (** A call on the aggregator with identity id: add(id), force_pop(id), pop(id), aggregator_registry.cpp:19-24, 33-45;
      for the other calls: get_aggregator(id)-> *)
  Definition rg_call (id : Z) (op : gop) (r : registry) : outcome (sout * registry) :=
    p <- rg_get id r ;;
    match p with
    | None => Ok (no_out op, r)
    | Some (pos, (s, g)) => '(o, g') <- g_call ne op g ;; Ok (o, rg_set pos (Some (s, g')) r)
    end.

  (** add(name, reduced_data), aggregator_registry.cpp:26-31 with get_aggregator(name), 108-111 *)
  Definition rg_add_name (e : cenv) (n : name) (d : rdata) (c1 c2 : Z) (r : registry) : outcome (sout * registry) :=
    '(id, r1) <- rg_create e n (ri_ts (rd_info d)) r ;;
    rg_call id (GoAdd (SmRed d) c1 c2) r1.

  (** pop_, aggregator_registry.cpp:266-282, the loop body; [clk] is the clock read by separate() when the aggregator
      of that name is visited *)
  Fixpoint rg_pop_loop (force : bool) (clk : name -> Z) (is : list nat) (r : registry) : outcome (list (name * adata) * registry) :=
    match is with
    | [] => Ok ([], r)
    | i :: t =>
        id <- d_pos2id i (rg_dict r) ;;
        p <- rg_get id r ;;
        '(l, r1) <-
          match p with
          | None => Ok ([], r)
          | Some (pos, (s, g)) =>
              '(_, g1) <- g_call ne (GoSeparate 0 false force (clk (rg_get_name id r))) g ;;
              '(o, g2) <- g_call ne (if force then GoForcePop else GoPop) g1 ;;
              Ok (match out_ptr o with Some a => [(rg_get_name id r, a)] | None => [] end, rg_set pos (Some (s, g2)) r)
          end ;;
        '(l2, r2) <- rg_pop_loop force clk t r1 ;;
        Ok (l ++ l2, r2)
    end.
  (** pop_all, aggregator_registry.cpp:47-54; force_pop_all, 56-62 *)
  Definition rg_pop_all (force : bool) (clk : name -> Z) (r : registry) : outcome (list (name * adata) * registry) :=
    rg_pop_loop force clk (seq 0 (length (rg_arr r))) r.

  (** enable, aggregator_registry.cpp:242-252 *)
  Definition rg_enable (v : bool) (r : registry) : registry :=
    mk_registry (rg_opt r) (map (option_map (fun ob : obj => (fst ob, g_enable v (snd ob)))) (rg_arr r)) (rg_dict r)
                v (rg_initializer r) (rg_next r).

  (** del, aggregator_registry.cpp:254-264; _agarr[pos] outside the array is undefined *)
  Definition rg_del (n : name) (r : registry) : outcome (bool * registry) :=
    let id := d_get_id n (rg_dict r) in
    if id =? bad_id then Ok (false, r)
    else
      pos <- d_id2pos id (rg_dict r) ;;
      if (pos <? length (rg_arr r))%nat then
        let '(b, d) := d_free_id id (rg_dict r) in
        Ok (b, mk_registry (rg_opt r) (set_nth pos None (rg_arr r)) d (rg_enabled r) (rg_initializer r) (rg_next r))
      else Ub.

  (** A pusher: weak_ptr to the object and to its _id, and a handler. *)
  Record rpusher := mk_rpusher { rp_obj : nat; rp_pu : pusher }.
  (** create_*_pusher(id, handler), aggregator_registry.cpp:149-168; [h]: the handler is not null *)
  Definition rg_pusher (id : Z) (h : bool) (r : registry) : outcome (option rpusher) :=
    p <- rg_get id r ;;
    Ok (match p with None => None | Some (_, (s, g)) => Some (mk_rpusher s (g_create_pusher h g)) end).
  (** create_*_pusher(name, handler, now), aggregator_registry.cpp:199-221 *)
  Definition rg_pusher_name (e : cenv) (n : name) (h : bool) (now : Z) (r : registry) : outcome (option rpusher * registry) :=
    '(id, r1) <- rg_create e n now r ;; p <- rg_pusher id h r1 ;; Ok (p, r1).

  (** The position of a live object. *)
  Fixpoint find_obj (s : nat) (l : list (option obj)) : option (nat * agg) :=
    match l with
    | [] => None
    | x :: t =>
        match x with
        | Some (s', g) => if (s =? s')%nat then Some (O, g) else option_map (fun p => (S (fst p), snd p)) (find_obj s t)
        | None => option_map (fun p => (S (fst p), snd p)) (find_obj s t)
        end
    end.
  (** Calling a pusher with a sample, basic_aggregator.hpp:101-147 *)
  Definition rg_call_pusher (p : rpusher) (x : sample) (c1 c2 : Z) (r : registry) : outcome (list adata * registry) :=
    match find_obj (rp_obj p) (rg_arr r) with
    | None => Ok ([], r)
    | Some (pos, g) =>
        '(recs, g') <- g_call_pusher (fun h g => '(o, g') <- g_call ne (GoPush x h c1 c2) g ;;
                                        Ok (true, out_handler o, g')) (rp_pu p) g ;;
        Ok (recs, rg_set pos (Some (rp_obj p, g')) r)
    end.

  (** create_composite_pusher(ids), aggregator_registry.cpp:170-196, and make_composite_handler_, 127-146 *)
  Record cpusher := mk_cpusher { cp_time : option rpusher; cp_read : option rpusher; cp_write : option rpusher; cp_sum : bool }.
  Definition rg_composite (tid rid wid : Z) (th rh wh : bool) (sum : bool) (r : registry) : outcome (option cpusher) :=
    t <- rg_pusher tid th r ;; rd <- rg_pusher rid rh r ;; w <- rg_pusher wid wh r ;;
    Ok (match t, rd, w with None, None, None => None | _, _, _ => Some (mk_cpusher t rd w sum) end).
  (** static_cast<time_type>(size) *)
  Definition to_i64 (x : Z) : Z := let m := u64 x in if m <? 2 ^ 63 then m else m - two64.
  Definition rg_call_opt (p : option rpusher) (x : sample) (c1 c2 : Z) (r : registry) : outcome (list adata * registry) :=
    match p with None => Ok ([], r) | Some p => rg_call_pusher p x c1 c2 r end.
  Definition rg_call_composite (p : cpusher) (now span count readed writed : Z) (c1 c2 c3 c4 c5 c6 : Z) (r : registry) :
      outcome (list adata * list adata * list adata * registry) :=
    '(l1, r1) <- rg_call_opt (cp_time p) (SmScalar now span count) c1 c2 r ;;
    '(l2, r2) <- rg_call_opt (cp_read p) (SmScalar now (to_i64 readed) (if cp_sum p then readed else count)) c3 c4 r1 ;;
    '(l3, r3) <- rg_call_opt (cp_write p) (SmScalar now (to_i64 writed) (if cp_sum p then writed else count)) c5 c6 r2 ;;
    Ok (l1, l2, l3, r3).

  (** class wrtstat, wrtstat.hpp:141-145; [w_handler]: options.handler is not null *)
  Record wrt := mk_wrt { w_reg : registry; w_handler : bool }.
  (** wrtstat::wrtstat, wrtstat.cpp:63-71 *)
  Definition w_new (o : rgopts) (h : bool) : wrt := mk_wrt (rg_new o) h.
  (** wrtstat::pushout_, wrtstat.cpp:356-365, with pushout (253-256) and force_pushout (258-261), the latter called by
      the destructor (58-61): the named records given to the handler; calling a null handler throws. *)
  Definition w_pushout (force : bool) (clk : name -> Z) (w : wrt) : outcome (list (name * adata) * wrt) :=
    '(l, r) <- rg_pop_all force clk (w_reg w) ;;
    if w_handler w then Ok (l, mk_wrt r true) else match l with [] => Ok ([], mk_wrt r false) | _ => Exn end.
  (** wrtstat::make_handler_(id), wrtstat.cpp:321-342, applied to the records a pusher delivers.  The name is looked up
      when a record arrives; the cached copy is a copy of the closure, so it is looked up again for every push. *)
  Definition w_deliver (id : Z) (recs : list adata) (r : registry) : list (name * adata) :=
    match rg_get_name id r with [] => [] | n => map (fun a => (n, a)) recs end.
End WithNth.
