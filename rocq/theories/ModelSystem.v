(** wrtstat/wrtstat.{hpp,cpp} together with the meters it makes and the points made from them, used by one thread. *)
From Coq Require Import ZArith List Bool Arith Ascii.
From Verif Require Import Base ModelTypes ModelReducer SpecReducer ModelSeparator SpecSeparator ModelAggregator SpecAggregator
  ModelRegistry SpecRegistry ModelComposite ModelMeters.
Import ListNotations.
Local Open Scope Z_scope.

(** What make_handler_(id) captures (wrtstat.cpp:321-342: the id and `this`) and what make_handler_(name) captures
    (344-354: the name and a copy of the handler). *)
Inductive dest := DId (id : Z) | DName (n : name).
(** The functions held by meters and points: the pushers of aggregator_registry::create_simple_pusher and
    create_composite_pusher (aggregator_registry.cpp:149-196) with the handlers given to them. *)
Inductive mfun :=
| FOne (p : rpusher) (id : Z)
| FComp (p : cpusher) (to : role -> dest).
Definition cp_role (k : role) (p : cpusher) : option rpusher :=
  match k with RoTime => cp_time p | RoRead => cp_read p | RoWrite => cp_write p end.

(** What can be observed.  [LMeter f n sum]: a meter was made whose function has number [f] ([None]: null) and which
    measures for the names [n k] ("": not at all; a time, size or value meter has the role RoTime). *)
Inductive yev :=
| LMeter (f : option nat) (n : role -> name) (sum : bool)
| LPoint (e : mevent)
| LHandler (n : name) (a : adata)                (* the handler of the options was called *)
| LAnswer (n : name) (op : rgop) (o : rgout)     (* a call on wrtstat; [n]: the name it is about, if it names one *)
| LPushed (size : nat).                          (* pushout/force_pushout returned *)

(** A program's objects: the wrtstat object and whether it still exists, all meter functions ever made, the points. *)
Record sys := mk_sys { y_wrt : wrt; y_alive : bool; y_funs : list mfun; y_pts : store }.
Definition y_new (o : rgopts) (h : bool) : sys := mk_sys (w_new o h) true [] [].
Definition y_reg (s : sys) : registry := w_reg (y_wrt s).
Definition y_set_reg (r : registry) (s : sys) : sys := mk_sys (mk_wrt r (w_handler (y_wrt s))) (y_alive s) (y_funs s) (y_pts s).
Definition y_add_fun (f : mfun) (s : sys) : sys := mk_sys (y_wrt s) (y_alive s) (y_funs s ++ [f]) (y_pts s).
Definition one_name (n : name) : role -> name := fun k => match k with RoTime => n | _ => [] end.

(** Calls.  The clock readings of a report are given per role: two for each push. *)
Inductive yop :=
| YMeterId (id : Z)                                               (* create_time_meter, create_size_meter, create_value_meter *)
| YMeterName (e : cenv) (n : name) (now : Z)
| YCompId (id : role -> Z) (sum : bool)                           (* create_composite_meter *)
| YCompName (order : list role) (e : role -> cenv) (n : role -> name) (sum : bool) (now : Z)
| YPt (o : mop) (cl : role -> Z * Z)                              (* whatever is done with points *)
| YReg (op : rgop)                                                (* the calls wrtstat passes on, wrtstat.cpp:73-86, 268-311 *)
| YPushout (force : bool) (clk : name -> Z)
| YDestroy (clk : name -> Z).                                     (* ~wrtstat *)

Section WithNth.
  Variable ne : nat -> list Z -> list Z.

  (** make_handler_(id) is null for bad_id and without a handler *)
  Definition y_has (id : Z) (s : sys) : bool := negb (id =? bad_id) && w_handler (y_wrt s).
  (** create_time_meter(id), wrtstat.cpp:89-94; create_size_meter(id), 117-120; create_value_meter(id), 144-147 *)
  Definition y_meter_id (id : Z) (s : sys) : outcome (list yev * sys) :=
    p <- rg_pusher id (y_has id s) (y_reg s) ;;
    Ok (match p with
        | None => ([LMeter None (fun _ => []) false], s)
        | Some p => ([LMeter (Some (length (y_funs s))) (one_name (rg_get_name id (y_reg s))) false], y_add_fun (FOne p id) s)
        end).
  (** ... by name: wrtstat.cpp:96-101, 122-125, 149-152 *)
  Definition y_meter_name (e : cenv) (n : name) (now : Z) (s : sys) : outcome (list yev * sys) :=
    '(id, r) <- rg_create ne e n now (y_reg s) ;; y_meter_id id (y_set_reg r s).
  Definition named_by (p : cpusher) (n : role -> name) : role -> name :=
    fun k => match cp_role k p with None => [] | Some _ => n k end.
  (** create_composite_meter(ids), wrtstat.cpp:171-183 *)
  Definition y_comp_id (id : role -> Z) (sum : bool) (s : sys) : outcome (list yev * sys) :=
    p <- rg_composite (id RoTime) (id RoRead) (id RoWrite) (y_has (id RoTime) s) (y_has (id RoRead) s) (y_has (id RoWrite) s) sum (y_reg s) ;;
    Ok (match p with
        | None => ([LMeter None (fun _ => []) false], s)
        | Some p => ([LMeter (Some (length (y_funs s))) (named_by p (fun k => rg_get_name (id k) (y_reg s))) sum],
                     y_add_fun (FComp p (fun k => DId (id k))) s)
        end).
  (** create_composite_meter(names), wrtstat.cpp:185-205 *)
  Definition y_comp_name (order : list role) (e : role -> cenv) (n : role -> name) (sum : bool) (now : Z) (s : sys) : outcome (list yev * sys) :=
    '(p, r) <- rg_composite_name ne order e n (fun _ => w_handler (y_wrt s)) sum now (y_reg s) ;;
    let s1 := y_set_reg r s in
    Ok (match p with
        | None => ([LMeter None (fun _ => []) false], s1)
        | Some p => ([LMeter (Some (length (y_funs s))) (named_by p n) sum], y_add_fun (FComp p (fun k => DName (n k))) s1)
        end).

  (** The handler of a pusher gets records: make_handler_(id) uses the wrtstat object, make_handler_(name) does not. *)
  Definition y_deliver (d : dest) (recs : list adata) (s : sys) : outcome (list yev) :=
    match recs with
    | [] => Ok []
    | _ =>
        match d with
        | DName n => Ok (map (LHandler n) recs)
        | DId id => if y_alive s then Ok (map (fun q => LHandler (fst q) (snd q)) (w_deliver id recs (y_reg s))) else Ub
        end
    end.
  Definition y_call (p : option rpusher) (d : dest) (x : sample) (cl : Z * Z) (s : sys) : outcome (list yev * sys) :=
    '(recs, r) <- rg_call_opt ne p x (fst cl) (snd cl) (y_reg s) ;;
    let s1 := y_set_reg r s in
    ev <- y_deliver d recs s1 ;; Ok (ev, s1).
  (** A point calls its function: basic_aggregator.hpp:101-115; make_composite_handler_, aggregator_registry.cpp:127-146.
      The function has the type the point wants (see [fits_kind]). *)
  Definition y_report (rp : report) (cl : role -> Z * Z) (s : sys) : outcome (list yev * sys) :=
    match nth_error (y_funs s) (rp_fun rp), rp_sizes rp with
    | Some (FOne p id), None => y_call (Some p) (DId id) (SmScalar (rp_now rp) (rp_value rp) (rp_count rp)) (cl RoTime) s
    | Some (FComp p to), Some (rd, wr) =>
        '(e1, s1) <- y_call (cp_time p) (to RoTime) (SmScalar (rp_now rp) (rp_value rp) (rp_count rp)) (cl RoTime) s ;;
        '(e2, s2) <- y_call (cp_read p) (to RoRead) (SmScalar (rp_now rp) (to_i64 rd) (if cp_sum p then rd else rp_count rp)) (cl RoRead) s1 ;;
        '(e3, s3) <- y_call (cp_write p) (to RoWrite) (SmScalar (rp_now rp) (to_i64 wr) (if cp_sum p then wr else rp_count rp)) (cl RoWrite) s2 ;;
        Ok (e1 ++ e2 ++ e3, s3)
    | _, _ => Ub
    end.
  (** An event of a point takes its course. *)
  Fixpoint y_events (es : list mevent) (cl : role -> Z * Z) (s : sys) : outcome (list yev * sys) :=
    match es with
    | [] => Ok ([], s)
    | e :: t =>
        '(ev1, s1) <- match e with EvReport rp => y_report rp cl s | _ => Ok ([], s) end ;;
        '(ev2, s2) <- y_events t cl s1 ;;
        Ok (LPoint e :: ev1 ++ ev2, s2)
    end.
  (** The function has the type of function points of kind [k] hold; a program in which it has not does not compile. *)
  Definition fits_kind (funs : list mfun) (k : kind) (f : option nat) : bool :=
    match f with
    | None => true
    | Some i => match nth_error funs i, k with
                | Some (FOne _ _), (KTime _ | KSize | KValue) => true
                | Some (FComp _ _), KComp _ => true
                | _, _ => false
                end
    end.
  Definition y_typed (o : mop) (s : sys) : bool :=
    match o with
    | MNew k f _ _ _ _ _ _ => fits_kind (y_funs s) k f
    | MResetFun i f _ _ _ _ _ _ _ _ => match m_get i (y_pts s) with Some p => fits_kind (y_funs s) (p_kind p) f | None => true end
    | MAssign i j => match m_get i (y_pts s), m_get j (y_pts s) with
                     | Some p, Some q => match p_kind p, p_kind q with
                                         | KTime a, KTime b | KComp a, KComp b => a =? b
                                         | KSize, KSize | KValue, KValue => true
                                         | _, _ => false
                                         end
                     | _, _ => true
                     end
    | _ => true
    end.

  (** The name a call is about. *)
  Definition about (op : rgop) (r : registry) : name :=
    match op with
    | RgCreate _ n _ | RgAddName _ n _ _ _ | RgDel n | RgPusherName _ n _ _ => n
    | RgCall id _ => rg_get_name id r
    | _ => []
    end.

  (** Using wrtstat after its destruction is undefined; points and meters may still be used. *)
  Definition y_do (op : yop) (s : sys) : outcome (list yev * sys) :=
    match op with
    | YPt o cl =>
        if y_typed o s then
          let '(es, pts) := m_do o (y_pts s) in
          y_events es cl (mk_sys (y_wrt s) (y_alive s) (y_funs s) pts)
        else Ok ([], s)
    | _ =>
        if negb (y_alive s) then Ub
        else match op with
             | YMeterId id => y_meter_id id s
             | YMeterName e n now => y_meter_name e n now s
             | YCompId id sum => y_comp_id id sum s
             | YCompName order e n sum now => y_comp_name order e n sum now s
             | YPt _ _ => Ub
             | YReg g => '(o, r) <- rg_do ne g (y_reg s) ;; Ok ([LAnswer (about g (y_reg s)) g o], y_set_reg r s)
             | YPushout force clk =>
                 '(l, w) <- w_pushout ne force clk (y_wrt s) ;;
                 Ok (map (fun q => LHandler (fst q) (snd q)) l ++ [LPushed (length l)], mk_sys w (y_alive s) (y_funs s) (y_pts s))
             | YDestroy clk =>
                 (* wrtstat.cpp:58-61; then the members go: the registry and with it all aggregators *)
                 '(l, w) <- w_pushout ne true clk (y_wrt s) ;;
                 let r := w_reg w in
                 Ok (map (fun q => LHandler (fst q) (snd q)) l,
                     mk_sys (mk_wrt (mk_registry (rg_opt r) [] (rg_dict r) (rg_enabled r) (rg_initializer r) (rg_next r)) (w_handler w))
                            false (y_funs s) (y_pts s))
             end
    end.
  Fixpoint y_run (s : sys) (ops : list yop) : outcome (list yev * sys) :=
    match ops with
    | [] => Ok ([], s)
    | op :: t => '(e1, s1) <- y_do op s ;; '(e2, s2) <- y_run s1 t ;; Ok (e1 ++ e2, s2)
    end.
End WithNth.

(** create_time_multi_meter, wrtstat.cpp:103-115; create_size_multi_meter, 127-138; create_value_multi_meter, 154-165: one meter for
    each prefix.  [es]: what the creations meet. *)
Definition y_multi (prefixes : list name) (n : name) (es : list (cenv * Z)) : list yop :=
  map (fun q => YMeterName (fst (snd q)) (fst q ++ n) (snd (snd q))) (combine prefixes es).
(** make_name_, wrtstat.cpp:314-319 *)
Definition make_name (prefix n : name) : name := match n with [] => [] | _ => prefix ++ n end.
(** create_composite_multi_meter, wrtstat.cpp:208-230 *)
Definition y_comp_multi (prefixes : list name) (n : role -> name) (sum : bool) (es : list (list role * (role -> cenv) * Z)) : list yop :=
  map (fun q => let '(order, e, now) := snd q in YCompName order e (fun k => make_name (fst q) (n k)) sum now) (combine prefixes es).
