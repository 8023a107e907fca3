(** What a user expects of a program that measures with wrtstat: what is measured under a name is what is reported for it. *)
From Coq Require Import ZArith List Bool Arith Ascii.
From Verif Require Import Base ModelTypes ModelReducer SpecReducer ModelSeparator SpecSeparator ModelAggregator SpecAggregator
  ModelRegistry SpecRegistry ModelComposite ModelMeters ModelSystem.
Import ListNotations.
Local Open Scope Z_scope.

(** The meters made, in order: the names each measures for and whether sizes are summed up.  The number of a meter's function is
    its place in this list. *)
Definition mtable := list ((role -> name) * bool).
Definition meters (log : list yev) : mtable :=
  flat_map (fun e => match e with LMeter (Some _) n sum => [(n, sum)] | _ => [] end) log.
(** What one report of a point measures for name [n]: its value under the first name; what was read and written, if the point
    knows, under the second and third, counted as the sizes themselves or as often as the point says. *)
Definition measured (n : name) (m : (role -> name) * bool) (r : report) : list rop :=
  let under k x := if name_eqb (fst m k) n then [x] else [] in
  under RoTime (OpAdd (rp_value r) (rp_count r)) ++
  match rp_sizes r with
  | None => []
  | Some (rd, wr) => under RoRead (OpAdd (to_i64 rd) (if snd m then rd else rp_count r)) ++
                     under RoWrite (OpAdd (to_i64 wr) (if snd m then wr else rp_count r))
  end.
(** Everything measured for [n], by meters or by add(); [tbl]: the meters made before. *)
Fixpoint sent (n : name) (tbl : mtable) (log : list yev) : list rop :=
  match log with
  | [] => []
  | e :: t =>
      match e with
      | LPoint (EvReport r) => match nth_error tbl (rp_fun r) with Some m => measured n m r | None => [] end
      | LAnswer m (RgCall _ (GoAdd x _ _)) _ => if name_eqb m n then [sm_op x] else []
      | LAnswer m (RgAddName _ _ d _ _) _ => if name_eqb m n then [OpAddRed d] else []
      | _ => []
      end ++ sent n (tbl ++ meters [e]) t
  end.
(** Every record received for [n]: by the handler, from pop() or force_pop(), from pop_all() or force_pop_all(). *)
Definition got_ev (n : name) (e : yev) : list adata :=
  match e with
  | LHandler m a => if name_eqb m n then [a] else []
  | LAnswer m (RgCall _ GoPop) (RCall o) | LAnswer m (RgCall _ GoForcePop) (RCall o) =>
      if name_eqb m n then match out_ptr o with Some a => [a] | None => [] end else []
  | LAnswer _ _ (RNamed l) => flat_map (fun q => if name_eqb (fst q) n then [snd q] else []) l
  | _ => []
  end.
Definition got (n : name) (log : list yev) : list adata := flat_map (got_ev n) log.

(** The calls of the public interface of wrtstat.  Numbers have the types they have in C++; ids are only used if id_step is 1
    (the default: otherwise an id never issued can reach somebody's aggregator, C30). *)
Definition id_use (o : rgopts) (id : Z) : Prop := rgo_step o = 1 /\ 0 <= id < two64.
Definition y_public (o : rgopts) (op : yop) : Prop :=
  match op with
  | YMeterId id => id_use o id
  | YCompId id _ => forall k, id_use o (id k)
  | YReg g =>
      match g with
      | RgCreate _ _ _ | RgAddName _ _ _ _ _ | RgPopAll _ _ | RgEnable _ | RgDel _ | RgGetName _ | RgSetInit false => True
      | RgCall id (GoAdd (SmScalar _ _ _) _ _) | RgCall id GoPop | RgCall id GoForcePop => id_use o id
      | _ => False
      end
  | _ => True
  end.
Definition ev_typed (e : yev) : Prop :=
  match e with
  | LPoint (EvReport r) => op_typed (OpAdd (rp_value r) (rp_count r)) /\
                           match rp_sizes r with Some (rd, wr) => is_u64 rd /\ is_u64 wr | None => True end
  | LAnswer _ (RgCall _ (GoAdd x _ _)) _ => op_typed (sm_op x)
  | LAnswer _ (RgAddName _ _ d _ _) _ => op_typed (OpAddRed d)
  | _ => True
  end.
(** How many names a call can create. *)
Definition creations (op : yop) : nat :=
  match op with
  | YMeterName _ _ _ => 1
  | YCompName order _ _ _ _ => length order
  | YReg (RgCreate _ _ _) | YReg (RgAddName _ _ _ _ _) => 1
  | _ => 0
  end.

(** The times that count for [n] in a call: those given, or read from the clock where none is given. *)
Definition mop_now (o : mop) : option Z :=
  match o with
  | MPush _ now _ | MResetFun _ _ _ _ _ _ _ now _ _ | MDestroy _ now _ => Some now
  | _ => None
  end.
Definition times (o : rgopts) (n : name) (op : yop) : list Z :=
  let res := so_res (ao_sep (rgo_agg o)) in
  let flush (clk : name -> Z) := if res_none res then [] else [clk n] in
  match op with
  | YMeterName e m now | YReg (RgCreate e m now) => if name_eqb m n then [given_time res (ce_clock e) now] else []
  | YCompName order e m _ now => flat_map (fun k => if name_eqb (m k) n then [given_time res (ce_clock (e k)) now] else []) order
  | YPt p cl => match mop_now p with Some now => map (fun k => given_time res (fst (cl k)) now) [RoTime; RoRead; RoWrite] | None => [] end
  | YReg (RgCall _ (GoAdd x c1 _)) => [given_time res c1 (sm_ts x)]
  | YReg (RgAddName e m d c1 _) =>
      if name_eqb m n then [given_time res (ce_clock e) (ri_ts (rd_info d)); given_time res c1 (ri_ts (rd_info d))] else []
  | YReg (RgPopAll _ clk) | YPushout _ clk | YDestroy clk => flush clk
  | _ => []
  end.
(** No time lies before an earlier one, the first is not before [t]. *)
Fixpoint forward (t : Z) (l : list Z) : Prop := match l with [] => True | x :: r => t <= x /\ forward x r end.

(** Measuring [n] is never interrupted. *)
Definition kept (n : name) (op : yop) : Prop :=
  match op with
  | YReg (RgDel m) => m <> n
  | YReg (RgEnable v) => v = true
  | YDestroy _ => False
  | _ => True
  end.
(** [n] is only fed by meters, and nothing is flushed by force. *)
Definition metered (op : yop) : Prop :=
  match op with
  | YReg (RgCall _ (GoAdd _ _ _)) | YReg (RgAddName _ _ _ _ _) => False
  | YReg (RgPopAll force _) | YPushout force _ => force = false
  | _ => True
  end.

(** The records [l] are the records of windows whose contents together make up [w]. *)
Definition records_of (ne : nat -> list Z -> list Z) (o : rgopts) (w : list rop) (l : list adata) : Prop :=
  exists groups : list (Z * list rop), w = flat_map snd groups /\
    Forall2 (fun q d => reported_as ne (so_red (ao_sep (rgo_agg o))) (fst q) (snd q) d) groups l.

(** A meter was made for the names [m] (summing up sizes if [sum]); it is null exactly if all of them are empty. *)
Definition meter_for (e : yev) (m : role -> name) (sum : bool) : Prop :=
  match e with
  | LMeter f nm b => (forall k, nm k = m k) /\ (f = None <-> forall k, m k = []) /\ (f <> None -> b = sum)
  | _ => False
  end.
Definition numbers (log : list yev) : list nat := flat_map (fun e => match e with LMeter (Some f) _ _ => [f] | _ => [] end) log.
(** Only points are used. *)
Definition only_points (op : yop) : Prop := match op with YPt _ _ => True | _ => False end.

(** What is measured for [n], with the times given: the samples whose calls [sent] lists. *)
Definition measured_at (n : name) (m : (role -> name) * bool) (r : report) : list sample :=
  let under k x := if name_eqb (fst m k) n then [x] else [] in
  under RoTime (SmScalar (rp_now r) (rp_value r) (rp_count r)) ++
  match rp_sizes r with
  | None => []
  | Some (rd, wr) => under RoRead (SmScalar (rp_now r) (to_i64 rd) (if snd m then rd else rp_count r)) ++
                     under RoWrite (SmScalar (rp_now r) (to_i64 wr) (if snd m then wr else rp_count r))
  end.
Fixpoint samples (n : name) (tbl : mtable) (log : list yev) : list sample :=
  match log with
  | [] => []
  | e :: t =>
      match e with
      | LPoint (EvReport r) => match nth_error tbl (rp_fun r) with Some m => measured_at n m r | None => [] end
      | LAnswer m (RgCall _ (GoAdd x _ _)) _ => if name_eqb m n then [x] else []
      | LAnswer m (RgAddName _ _ d _ _) _ => if name_eqb m n then [SmRed d] else []
      | _ => []
      end ++ samples n (tbl ++ meters [e]) t
  end.
(** One aggregator, used alone: made at [lf_now] and then called with [lf_ops], which answered [lf_outs]. *)
Record life := mk_life { lf_clock : Z; lf_rnd : Z; lf_now : Z; lf_ops : list gop; lf_outs : list sout }.
Definition lived (ne : nat -> list Z -> list Z) (o : aopts) (l : life) (g : agg) : Prop :=
  exists g0, agg_new o (lf_clock l) (lf_rnd l) (lf_now l) = Ok g0 /\ g_run ne g0 (lf_ops l) = Ok (lf_outs l, g).
(** The samples it was given and the records it gave out. *)
Definition life_samples (l : life) : list sample :=
  flat_map (fun op => match op with GoAdd x _ _ | GoPush x _ _ _ => [x] | _ => [] end) (lf_ops l).
Definition life_records (l : life) : list adata := deliveries (lf_ops l) (lf_outs l).
(** The calls a program makes on an aggregator. *)
Definition life_op (op : gop) : Prop :=
  match op with
  | GoClear _ _ | GoCurrent => False
  | GoSeparate ts h _ _ => ts = 0 /\ h = false
  | _ => True
  end.
