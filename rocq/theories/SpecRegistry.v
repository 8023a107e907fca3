(** What a user expects of a registry. *)
From Coq Require Import ZArith List Bool Arith Ascii.
From Verif Require Import Base ModelTypes ModelReducer SpecReducer ModelSeparator SpecSeparator ModelAggregator SpecAggregator ModelRegistry.
Import ListNotations.
Local Open Scope Z_scope.

(** Public calls on a registry.  [RgCall id op] is add/pop/force_pop by id, or any call on get_aggregator(id). *)
Inductive rgop :=
| RgCreate (e : cenv) (n : name) (now : Z)
| RgCall (id : Z) (op : gop)
| RgAddName (e : cenv) (n : name) (d : rdata) (c1 c2 : Z)
| RgPopAll (force : bool) (clk : name -> Z)
| RgEnable (v : bool)
| RgSetInit (v : bool)
| RgDel (n : name)
| RgGetName (id : Z)
| RgPusher (id : Z) (h : bool)
| RgPusherName (e : cenv) (n : name) (h : bool) (now : Z)
| RgPush (p : rpusher) (x : sample) (c1 c2 : Z).

Inductive rgout :=
| RId (id : Z) | RCall (o : sout) | RNamed (l : list (name * adata)) | RUnit | RBool (b : bool) | RName (n : name)
| RPusher (p : option rpusher) | RRecs (l : list adata).

Section Run.
  Variable ne : nat -> list Z -> list Z.
  Definition rg_do (op : rgop) (r : registry) : outcome (rgout * registry) :=
    match op with
    | RgCreate e n now => '(id, r1) <- rg_create ne e n now r ;; Ok (RId id, r1)
    | RgCall id g => '(o, r1) <- rg_call ne id g r ;; Ok (RCall o, r1)
    | RgAddName e n d c1 c2 => '(o, r1) <- rg_add_name ne e n d c1 c2 r ;; Ok (RCall o, r1)
    | RgPopAll f clk => '(l, r1) <- rg_pop_all ne f clk r ;; Ok (RNamed l, r1)
    | RgEnable v => Ok (RUnit, rg_enable v r)
    | RgSetInit v => Ok (RUnit, rg_set_initializer v r)
    | RgDel n => '(b, r1) <- rg_del n r ;; Ok (RBool b, r1)
    | RgGetName id => Ok (RName (rg_get_name id r), r)
    | RgPusher id h => p <- rg_pusher id h r ;; Ok (RPusher p, r)
    | RgPusherName e n h now => '(p, r1) <- rg_pusher_name ne e n h now r ;; Ok (RPusher p, r1)
    | RgPush p x c1 c2 => '(l, r1) <- rg_call_pusher ne p x c1 c2 r ;; Ok (RRecs l, r1)
    end.
  Fixpoint rg_run (r : registry) (ops : list rgop) : outcome (list rgout * registry) :=
    match ops with
    | [] => Ok ([], r)
    | op :: t => '(o, r1) <- rg_do op r ;; '(os, r2) <- rg_run r1 t ;; Ok (o :: os, r2)
    end.
End Run.

(** Ids do not wrap around: room for one new id per call. *)
Definition fits (o : rgopts) (n : nat) : Prop :=
  0 <= rgo_init o /\ 0 < rgo_step o /\ rgo_init o + rgo_step o * (Z.of_nat n + 3) < two64.
(** [r] is a state of a registry with options [o] after some history of [n] calls. *)
Definition reachable (ne : nat -> list Z -> list Z) (o : rgopts) (n : nat) (r : registry) : Prop :=
  exists ops outs, length ops = n /\ rg_run ne (rg_new o) ops = Ok (outs, r).

(** Ids are values of size_t. *)
Definition id_ok (op : rgop) : Prop := match op with RgCall id _ => 0 <= id < two64 | _ => True end.

(** The aggregator registered under a name: what get_aggregator(id) gives for the id whose get_name is that name. *)
Definition registered (r : registry) (n : name) (id : Z) (s : nat) (g : agg) : Prop :=
  n <> [] /\ rg_get_name id r = n /\ exists pos, rg_get id r = Ok (Some (pos, (s, g))).

(** What pop_all/force_pop_all asks of one aggregator: separate(force), then pop() or force_pop(). *)
Definition taken (ne : nat -> list Z -> list Z) (force : bool) (c : Z) (g : agg) (d : option adata) (g' : agg) : Prop :=
  exists o1 g1 o2, g_call ne (GoSeparate 0 false force c) g = Ok (o1, g1) /\
    g_call ne (if force then GoForcePop else GoPop) g1 = Ok (o2, g') /\ out_ptr o2 = d.
(** separate() answers that nothing is due: the open window has not ended at clock reading [c]. *)
Definition not_due (ne : nat -> list Z -> list Z) (c : Z) (g : agg) : Prop :=
  exists l, g_call ne (GoSeparate 0 false false c) g = Ok (mk_sout (Some false) l None, g).

(** One aggregator on its own: the machine a user of a single name sees. *)
Record cell := mk_cell { cl_agg : option agg; cl_enabled : bool; cl_init : bool }.
Inductive cop :=
| CoCreate (e : cenv) (now : Z)
| CoCall (op : gop)
| CoAddName (e : cenv) (d : rdata) (c1 c2 : Z)
| CoPopAll (force : bool) (c : Z)
| CoEnable (v : bool)
| CoSetInit (v : bool)
| CoDel
| CoPush (p : pusher) (x : sample) (c1 c2 : Z).
(** What is observed for that name. *)
Inductive cout := CUnit | COut (o : sout) | CPopped (a : option adata) | CRecs (l : list adata).

Section Cell.
  Variable ne : nat -> list Z -> list Z.
  Variable o : aopts.

  Definition cell_set (g : option agg) (c : cell) : cell := mk_cell g (cl_enabled c) (cl_init c).
  Definition cell_create (e : cenv) (now : Z) (c : cell) : outcome (agg * cell) :=
    match cl_agg c with
    | Some g => Ok (g, c)
    | None =>
        g <- agg_new o (ce_clock e) (ce_rnd e) now ;;
        g1 <- (if negb (cl_enabled c) then Ok (g_enable false g)
               else match cl_init c, ce_init e with
                    | true, Some rd => '(_, g') <- g_add_red ne (ce_c1 e) (ce_c2 e) rd g ;; Ok g'
                    | _, _ => Ok g
                    end) ;;
        Ok (g1, cell_set (Some g1) c)
    end.
  Definition cell_do (op : cop) (c : cell) : outcome (cout * cell) :=
    match op with
    | CoCreate e now => '(_, c1) <- cell_create e now c ;; Ok (CUnit, c1)
    | CoCall g =>
        match cl_agg c with
        | None => Ok (COut (no_out g), c)
        | Some a => '(r, a1) <- g_call ne g a ;; Ok (COut r, cell_set (Some a1) c)
        end
    | CoAddName e d k1 k2 =>
        '(a, c1) <- cell_create e (ri_ts (rd_info d)) c ;;
        '(r, a1) <- g_call ne (GoAdd (SmRed d) k1 k2) a ;; Ok (COut r, cell_set (Some a1) c1)
    | CoPopAll f k =>
        match cl_agg c with
        | None => Ok (CPopped None, c)
        | Some a =>
            '(_, a1) <- g_call ne (GoSeparate 0 false f k) a ;;
            '(r, a2) <- g_call ne (if f then GoForcePop else GoPop) a1 ;;
            Ok (CPopped (out_ptr r), cell_set (Some a2) c)
        end
    | CoEnable v => Ok (CUnit, mk_cell (option_map (g_enable v) (cl_agg c)) v (cl_init c))
    | CoSetInit v => Ok (CUnit, mk_cell (cl_agg c) (cl_enabled c) v)
    | CoDel => Ok (CUnit, cell_set None c)
    | CoPush p x k1 k2 =>
        match cl_agg c with
        | None => Ok (CRecs [], c)
        | Some a =>
            '(l, a1) <- g_call_pusher (fun h a => '(r, a1) <- g_call ne (GoPush x h k1 k2) a ;; Ok (true, out_handler r, a1)) p a ;;
            Ok (CRecs l, cell_set (Some a1) c)
        end
    end.
  Fixpoint cell_run (c : cell) (ops : list cop) : outcome (list cout * cell) :=
    match ops with
    | [] => Ok ([], c)
    | op :: t => '(r, c1) <- cell_do op c ;; '(rs, c2) <- cell_run c1 t ;; Ok (r :: rs, c2)
    end.
End Cell.

(** The calls addressed to name [n] <> "", in state [r]: by name; by an id whose name is [n]; through a pusher of the
    aggregator registered under [n]; pop_all, enable and set_initializer are addressed to every name. *)
Definition find_name (n : name) (r : registry) : option (Z * nat * agg) :=
  match m_find name_eqb n (d_dict (rg_dict r)) with
  | None => None
  | Some id => match rg_get id r with Ok (Some (_, (s, g))) => Some (id, s, g) | _ => None end
  end.
Definition addressed (n : name) (r : registry) (op : rgop) : option cop :=
  match op with
  | RgCreate e m now => if name_eqb m n then Some (CoCreate e now) else None
  | RgCall id g => if name_eqb (rg_get_name id r) n then Some (CoCall g) else None
  | RgAddName e m d c1 c2 => if name_eqb m n then Some (CoAddName e d c1 c2) else None
  | RgPopAll f clk => Some (CoPopAll f (clk n))
  | RgEnable v => Some (CoEnable v)
  | RgSetInit v => Some (CoSetInit v)
  | RgDel m => if name_eqb m n then Some CoDel else None
  | RgGetName _ | RgPusher _ _ => None
  | RgPusherName e m h now => if name_eqb m n then Some (CoCreate e now) else None
  | RgPush p x c1 c2 =>
      match find_name n r with
      | Some (_, s, _) => if (s =? rp_obj p)%nat then Some (CoPush (rp_pu p) x c1 c2) else None
      | None => None
      end
  end.
(** What an answer of the registry says about [n]. *)
Definition view (n : name) (o : rgout) : cout :=
  match o with
  | RCall r => COut r
  | RNamed l => CPopped (m_find name_eqb n l)
  | RRecs l => CRecs l
  | _ => CUnit
  end.
Section Project.
  Variable ne : nat -> list Z -> list Z.
  (** The calls of a history addressed to [n], and their answers. *)
  Fixpoint project (n : name) (r : registry) (ops : list rgop) : list (cop * cout) :=
    match ops with
    | [] => []
    | op :: t =>
        match rg_do ne op r with
        | Ok (o, r1) => match addressed n r op with Some c => [(c, view n o)] | None => [] end ++ project n r1 t
        | _ => []
        end
    end.
  (** No call uses an id that was never issued but happens to reach an aggregator (see C30). *)
  Definition clean (r : registry) (op : rgop) : Prop :=
    match op with RgCall id _ => rg_get_name id r <> [] \/ rg_get id r = Ok None | _ => True end.
  Fixpoint all_clean (r : registry) (ops : list rgop) : Prop :=
    match ops with
    | [] => True
    | op :: t => clean r op /\ match rg_do ne op r with Ok (_, r1) => all_clean r1 t | _ => True end
    end.
End Project.
