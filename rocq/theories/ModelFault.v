(** wrtstat/aggregator/aggregator_registry.cpp and wrtstat/system/dict.hpp when a function of the registry is left by an exception: an
    allocation fails (std::bad_alloc) or the initializer of the user throws.  Every function here locks with a guard object, so the mutex
    is released on the way out; nothing else is undone: the registry is left as the statements before the throw have made it.
    Places where a failing allocation leaves everything as it was are not listed: the reserve() of pop_ (line 269, before the loop), the
    copies made by set_initializer (std::function assigns by copy and swap), the std::function of a new pusher and the names returned by
    get_name() itself.  Allocations inside an aggregator are the subject of ModelAlloc. *)
From Coq Require Import ZArith List Bool Arith Ascii.
From Verif Require Import Base ModelTypes ModelReducer SpecReducer ModelSeparator SpecSeparator ModelAggregator SpecAggregator
  ModelRegistry SpecRegistry.
Import ListNotations.
Local Open Scope Z_scope.

(** The places where create_aggregator may throw: [XDict] and [XIndex] the insertions into the two tables, dict.hpp:38 and 39; [XResize]
    _agarr.resize, aggregator_registry.cpp:89; [XNew] std::make_shared or the constructor it calls, line 93; [XInit] the initializer, line 99. *)
Inductive xplace := XDict | XIndex | XResize | XNew | XInit.

(** dict::create_id, dict.hpp:21-41.  The new id is taken before the name is entered.  The boolean: an exception. *)
Definition d_create_id_x (x : option xplace) (pick : nat) (n : name) (d : dict) : bool * Z * dict :=
  match m_find name_eqb n (d_dict d) with
  | Some id => (false, id, d)
  | None =>
      let '(id, counter, free) :=
        match d_free d with
        | [] => let c := u64 (d_counter d + d_step d) in (c, c, [])
        | f0 :: _ => let id := nth (pick mod length (d_free d))%nat (d_free d) f0 in
                     (id, d_counter d, filter (fun x => negb (x =? id)) (d_free d))
        end in
      match x with
      | Some XDict => (true, id, mk_dict counter (d_step d) (d_dict d) (d_index d) free)
      | Some XIndex => (true, id, mk_dict counter (d_step d) (m_insert name_eqb n id (d_dict d)) (d_index d) free)
      | _ => (false, id, mk_dict counter (d_step d) (m_insert name_eqb n id (d_dict d)) (m_insert Z.eqb id n (d_index d)) free)
      end
  end.
(** dict::free(id), dict.hpp:59-69: _free.insert (65) fails before the tables are touched.  The boolean: an exception. *)
Definition d_free_id_x (id : Z) (d : dict) : bool :=
  match m_find Z.eqb id (d_index d) with None => false | Some _ => true end.

Section WithNth.
  Variable ne : nat -> list Z -> list Z.

  (** What is done with a new aggregator, aggregator_registry.cpp:94-103 *)
  Definition rg_init_x (e : cenv) (g : agg) (r : registry) : outcome agg :=
    if negb (rg_enabled r) then Ok (g_enable false g)
    else if rg_initializer r then
      match ce_init e with
      | Some rd => '(_, g') <- g_add_red ne (ce_c1 e) (ce_c2 e) rd g ;; Ok g'
      | None => Ok g
      end
    else Ok g.

  (** create_aggregator, aggregator_registry.cpp:77-106, throwing at the place [x] if it comes there.  [None]: it threw. *)
  Definition rg_create_x (x : option xplace) (e : cenv) (n : name) (now : Z) (r : registry) : outcome (option Z * registry) :=
    match n with
    | [] => Ok (Some bad_id, r)
    | _ =>
        let '(threw, id, d) := d_create_id_x x (ce_pick e) n (rg_dict r) in
        let r1 := mk_registry (rg_opt r) (rg_arr r) d (rg_enabled r) (rg_initializer r) (rg_next r) in
        if (threw : bool) then Ok (None, r1)
        else
          pos <- d_id2pos id d ;;
          match nth_error (rg_arr r) pos with
          | Some (Some _) => Ok (Some id, r1)
          | _ =>
              let put g := mk_registry (rg_opt r) (set_nth pos (Some (rg_next r, g)) (resize (S pos) (rg_arr r))) d
                                       (rg_enabled r) (rg_initializer r) (S (rg_next r)) in
              match x with
              | Some XResize =>
                  if (length (rg_arr r) <=? pos)%nat then Ok (None, r1)
                  else
                    g <- agg_new (rg_opt r) (ce_clock e) (ce_rnd e) now ;; g1 <- rg_init_x e g r ;; Ok (Some id, put g1)
              | Some XNew =>
                  Ok (None, mk_registry (rg_opt r) (resize (S pos) (rg_arr r)) d (rg_enabled r) (rg_initializer r) (rg_next r))
              | Some XInit =>
                  g <- agg_new (rg_opt r) (ce_clock e) (ce_rnd e) now ;;
                  if rg_enabled r && rg_initializer r then Ok (None, put g)
                  else g1 <- rg_init_x e g r ;; Ok (Some id, put g1)
              | _ => g <- agg_new (rg_opt r) (ce_clock e) (ce_rnd e) now ;; g1 <- rg_init_x e g r ;; Ok (Some id, put g1)
              end
          end
    end.

  (** del, aggregator_registry.cpp:254-264, when _free.insert fails; the slot of the array is already empty then *)
  Definition rg_del_x (n : name) (r : registry) : outcome (option bool * registry) :=
    let id := d_get_id n (rg_dict r) in
    if id =? bad_id then Ok (Some false, r)
    else
      pos <- d_id2pos id (rg_dict r) ;;
      if (pos <? length (rg_arr r))%nat then
        let r1 := mk_registry (rg_opt r) (set_nth pos None (rg_arr r)) (rg_dict r) (rg_enabled r) (rg_initializer r) (rg_next r) in
        Ok (if d_free_id_x id (rg_dict r) then None else Some false, r1)
      else Ub.

  (** pop_, aggregator_registry.cpp:266-282, when the copy of a name (line 278) fails: the one of the record number [i], counted from 0.
      The record has left its aggregator by then (276), and no list has it.  The second component: that record and the name it has. *)
  Fixpoint rg_pop_loop_x (i : nat) (force : bool) (clk : name -> Z) (is : list nat) (r : registry) :
      outcome (list (name * adata) * option (name * adata) * registry) :=
    match is with
    | [] => Ok ([], None, r)
    | p :: t =>
        id <- d_pos2id p (rg_dict r) ;;
        q <- rg_get id r ;;
        match q with
        | None => rg_pop_loop_x i force clk t r
        | Some (pos, (s, g)) =>
            '(_, g1) <- g_call ne (GoSeparate 0 false force (clk (rg_get_name id r))) g ;;
            '(o, g2) <- g_call ne (if force then GoForcePop else GoPop) g1 ;;
            let r1 := rg_set pos (Some (s, g2)) r in
            match out_ptr o, i with
            | None, _ => rg_pop_loop_x i force clk t r1
            | Some a, O => Ok ([], Some (rg_get_name id r, a), r1)
            | Some a, S i' => '(l, x, r2) <- rg_pop_loop_x i' force clk t r1 ;; Ok ((rg_get_name id r, a) :: l, x, r2)
            end
        end
    end.
  (** pop_all, aggregator_registry.cpp:47-54; force_pop_all, 56-62.  The list belongs to the caller and keeps what it has got. *)
  Definition rg_pop_all_x (i : nat) (force : bool) (clk : name -> Z) (r : registry) : outcome (list (name * adata) * option (name * adata) * registry) :=
    rg_pop_loop_x i force clk (seq 0 (length (rg_arr r))) r.
  (** wrtstat::pushout_, wrtstat.cpp:356-365: its list is a local variable, the handler is called after the list is complete.
      [None]: the exception leaves the call, nothing was handed over *)
  Definition w_pushout_x (i : nat) (force : bool) (clk : name -> Z) (w : wrt) : outcome (option (list (name * adata)) * wrt) :=
    '(l, x, r) <- rg_pop_all_x i force clk (w_reg w) ;;
    match x with
    | Some _ => Ok (None, mk_wrt r (w_handler w))
    | None => if w_handler w then Ok (Some l, mk_wrt r true) else match l with [] => Ok (Some [], mk_wrt r false) | _ => Exn end
    end.

  (** A call on a registry: without a failure, or with one.  A failing add(name, ...) or create_*_pusher(name, ...) is a failing
      create_aggregator, its first step (aggregator_registry.cpp:108-111, 199-221). *)
  Inductive xop :=
  | XOp (op : rgop)
  | XCreate (x : xplace) (e : cenv) (n : name) (now : Z)
  | XDel (n : name)
  | XPopAll (i : nat) (force : bool) (clk : name -> Z).
  (** How it ends.  [XPopThrew l p]: pop_all threw; the list of the caller has [l], the record [p] is lost. *)
  Inductive xout := XRet (o : rgout) | XThrew | XPopThrew (l : list (name * adata)) (p : name * adata).
  Definition x_do (op : xop) (r : registry) : outcome (xout * registry) :=
    match op with
    | XOp op => '(o, r1) <- rg_do ne op r ;; Ok (XRet o, r1)
    | XCreate x e n now =>
        '(id, r1) <- rg_create_x (Some x) e n now r ;; Ok (match id with Some id => XRet (RId id) | None => XThrew end, r1)
    | XDel n => '(b, r1) <- rg_del_x n r ;; Ok (match b with Some b => XRet (RBool b) | None => XThrew end, r1)
    | XPopAll i force clk =>
        '(l, x, r1) <- rg_pop_all_x i force clk r ;; Ok (match x with None => XRet (RNamed l) | Some p => XPopThrew l p end, r1)
    end.
  Fixpoint x_run (r : registry) (ops : list xop) : outcome (list xout * registry) :=
    match ops with
    | [] => Ok ([], r)
    | op :: t => '(o, r1) <- x_do op r ;; '(os, r2) <- x_run r1 t ;; Ok (o :: os, r2)
    end.
End WithNth.
