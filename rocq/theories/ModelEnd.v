(** The destruction of a wrtstat object while other threads work (wrtstat.cpp:58-61 and the members' destructors), on top of ModelConc.
    ~wrtstat calls force_pushout(), hands the records to the handler and then destroys _handler and _registry, and with the registry its
    pool of buffers, its dictionary and its references to the aggregators (wrtstat.hpp:141-143, aggregator_registry.hpp:111-115).  An
    aggregator some thread still holds lives on, but its allocator points to the pool (pool.hpp:25-31). *)
From Coq Require Import ZArith List Bool Arith Ascii.
From Verif Require Import Base ModelTypes ModelReducer SpecReducer ModelSeparator SpecSeparator ModelAggregator SpecAggregator
  ModelRegistry SpecRegistry ModelConc.
Import ListNotations.
Local Open Scope Z_scope.

(** Where the destructor, run by thread [t], is: inside force_pop_all; calling the handler; the members are destroyed. *)
Inductive phase := EOpen | EPopping (t : nat) | EHanding (t : nat) | EGone.
Record fin := mk_fin { e_conc : conc; e_phase : phase }.
Definition e_new (o : rgopts) (threads : nat) : fin := mk_fin (k_new o threads) EOpen.
Inductive eop := EK (k : kop) | EDestroy (clk : name -> Z).
(** The calls the points of meters make. *)
Definition is_report (k : kop) : bool := match k with KOp (RgPush _ _ _ _) | KMeter _ _ _ _ _ => true | _ => false end.

(** _agarr is destroyed; aggregators that are held live on. *)
Definition e_drop (c : conc) : conc :=
  let r := k_reg c in
  mk_conc (mk_registry (rg_opt r) [] (rg_dict r) (rg_enabled r) (rg_initializer r) (rg_next r))
    (flat_map (fun x => match x with Some ob => [ob] | None => [] end) (rg_arr r) ++ k_dead c) (k_thr c).

(** The rows of the current window. *)
Definition rows (g : agg) : nat := length (r_data (s_red (g_sep g))).
(** A call that turned [g] into [g'] has used the allocator: a window with several rows was closed (reducer.cpp:264-265), rows were added
    (291), or the copy made by aggregate_current was reduced (31, 173). *)
Definition uses_pool (op : gop) (g g' : agg) : bool :=
  let closed := negb (s_next (g_sep g) =? s_next (g_sep g')) in
  (closed && ((1 <? rows g) || (0 <? rows g')))%nat || (rows g <? rows g')%nat || match op with GoCurrent => (1 <? rows g)%nat | _ => false end.
Definition idle (t : nat) (c : conc) : bool := match nth_error (k_thr c) t with Some PIdle => true | _ => false end.

Section Step.
  Variable ne : nat -> list Z -> list Z.
  (** The members are gone: a call on an aggregator may not touch the pool, nothing else may use the registry. *)
  Definition e_late (t : nat) (p : pc) (c : conc) : outcome (list event * conc) :=
    match p with
    | PGot _ s _ | PLocked (mk_rpusher s _) _ _ _ _ =>
        guard (can_call s c) c
        ('(ev, c1) <- k_next ne t p c ;;
        let op := match p with PGot _ _ op => op | PLocked p x c1 c2 _ => GoPush x (pu_handler (rp_pu p)) c1 c2 | _ => GoPop end in
        match m_find Nat.eqb s (k_dead c), m_find Nat.eqb s (k_dead c1) with
        | Some g, Some g' => if uses_pool op g g' then Ub else Ok (ev, c1)
        | _, _ => Ub
        end)
    | PLeave _ _ _ => k_next ne t p c
    | _ => Ub
    end.
  Definition e_step (t : nat) (op : eop) (f : fin) : outcome (list event * fin) :=
    let c := e_conc f in
    match e_phase f with
    | EGone =>
        match nth_error (k_thr c) t with
        | None => Ok ([], f)
        | Some PIdle => match op with
                        | EK k => if is_report k then '(ev, c1) <- k_start ne t k c ;; Ok (ev, mk_fin c1 EGone) else Ub
                        | EDestroy _ => Ub
                        end
        | Some p => '(ev, c1) <- e_late t p c ;; Ok (ev, mk_fin c1 EGone)
        end
    | EHanding t' =>
        if (t =? t')%nat then Ok ([], mk_fin (e_drop c) EGone)
        else match op, idle t c with
             | EDestroy _, true => Ub
             | EDestroy _, false => '(ev, c1) <- k_step ne t (KOp (RgGetName 0)) c ;; Ok (ev, mk_fin c1 (EHanding t'))
             | EK k, _ => '(ev, c1) <- k_step ne t k c ;; Ok (ev, mk_fin c1 (EHanding t'))
             end
    | EPopping t' =>
        match op, idle t c with
        | EDestroy _, true => Ub
        | EDestroy _, false => '(ev, c1) <- k_step ne t (KOp (RgGetName 0)) c ;; Ok (ev, mk_fin c1 (if idle t' c1 then EHanding t' else EPopping t'))
        | EK k, _ => '(ev, c1) <- k_step ne t k c ;; Ok (ev, mk_fin c1 (if idle t' c1 then EHanding t' else EPopping t'))
        end
    | EOpen =>
        match op, idle t c with
        | EDestroy clk, true => '(ev, c1) <- k_step ne t (KOp (RgPopAll true clk)) c ;; Ok (ev, mk_fin c1 (if idle t c1 then EOpen else EPopping t))
        | EDestroy _, false => '(ev, c1) <- k_step ne t (KOp (RgGetName 0)) c ;; Ok (ev, mk_fin c1 EOpen)
        | EK k, _ => '(ev, c1) <- k_step ne t k c ;; Ok (ev, mk_fin c1 EOpen)
        end
    end.
  Fixpoint e_run (f : fin) (sched : list (nat * eop)) : outcome (list event * fin) :=
    match sched with
    | [] => Ok ([], f)
    | (t, op) :: rest => '(ev, f1) <- e_step t op f ;; '(evs, f2) <- e_run f1 rest ;; Ok (ev ++ evs, f2)
    end.
End Step.
