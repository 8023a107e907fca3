(** Inputs for which no call may fail: times that leave room for one step below 2^63, values of the type that survive the
    conversion to double and back, ids that do not run out. *)
From Coq Require Import ZArith List Bool Arith Ascii.
From Verif Require Import Base ModelTypes ModelReducer SpecReducer ModelSeparator SpecSeparator ModelAggregator SpecAggregator
  ModelRegistry SpecRegistry ModelComposite ModelMeters ModelSystem.
Import ListNotations.
Local Open Scope Z_scope.

Section Safe.
  Variable o : aopts.
  Let step := so_step (ao_sep o).
  Definition call_safe (op : gop) : Prop := gop_typed op /\ gop_safe step op.
  (** A creation: the time given and the clock; with soiling, what it draws; what an initializer returns. *)
  Definition env_safe (e : cenv) (now : Z) : Prop :=
    time_ok step now /\ time_ok step (ce_clock e) /\
    (so_soiled (ao_sep o) = 0 \/
     (i64_min + 2 ^ 62 <= now /\ i64_min + 2 ^ 62 <= ce_clock e /\ 0 <= ce_rnd e < 2 ^ 31 /\ i64 (so_soiled (ao_sep o)))) /\
    match ce_init e with Some d => call_safe (GoAdd (SmRed d) (ce_c1 e) (ce_c2 e)) | None => True end.
  Definition rgop_safe (op : rgop) : Prop :=
    match op with
    | RgCreate e _ now | RgPusherName e _ _ now => env_safe e now
    | RgCall _ g => call_safe g
    | RgAddName e _ d c1 c2 => env_safe e (ri_ts (rd_info d)) /\ call_safe (GoAdd (SmRed d) c1 c2)
    | RgPopAll _ clk => forall n, time_ok step (clk n)
    | RgPush _ x c1 c2 => call_safe (GoPush x true c1 c2)
    | RgEnable _ | RgSetInit _ | RgDel _ | RgGetName _ | RgPusher _ _ => True
    end.
  (** A report of a point; [cl]: the clock readings of the pushes. *)
  Definition report_safe (cl : role -> Z * Z) (e : mevent) : Prop :=
    match e with
    | EvReport r =>
        let push k v c := call_safe (GoPush (SmScalar (rp_now r) v c) true (fst (cl k)) (snd (cl k))) in
        push RoTime (rp_value r) (rp_count r) /\
        match rp_sizes r with
        | None => True
        | Some (rd, wr) => is_u64 rd /\ is_u64 wr /\ push RoRead (to_i64 rd) (rp_count r) /\ push RoWrite (to_i64 wr) (rp_count r)
        end
    | _ => True
    end.
  (** wrtstat itself is only used while it exists. *)
  Definition y_safe (s : sys) (op : yop) : Prop :=
    match op with
    | YPt p cl => Forall (report_safe cl) (fst (m_do p (y_pts s)))
    | _ => y_alive s = true /\
        match op with
        | YMeterId _ | YCompId _ _ | YPt _ _ => True
        | YMeterName e _ now => env_safe e now
        | YCompName _ e _ _ now => forall k, env_safe (e k) now
        | YReg g => rgop_safe g
        | YPushout _ clk | YDestroy clk => forall n, time_ok step (clk n)
        end
    end.
  Fixpoint all_safe (ne : nat -> list Z -> list Z) (s : sys) (ops : list yop) : Prop :=
    match ops with
    | [] => True
    | op :: t => y_safe s op /\ forall e s', y_do ne op s = Ok (e, s') -> all_safe ne s' t
    end.
End Safe.

(** How many values a call can record, how many ids it can use up. *)
Definition init_volume (e : cenv) : nat := match ce_init e with Some d => length (rd_data d) | None => 0 end.
Definition rg_volume (op : rgop) : nat :=
  match op with
  | RgCreate e _ _ | RgPusherName e _ _ _ => init_volume e
  | RgCall _ g => length (gop_values g)
  | RgAddName e _ d _ _ => init_volume e + length (rd_data d)
  | RgPush _ x _ _ => length (op_values (sm_op x))
  | _ => 0
  end.
Definition y_volume (op : yop) : nat :=
  match op with
  | YPt _ _ => 3
  | YReg g => rg_volume g
  | YMeterName e _ _ => init_volume e
  | YCompName order e _ _ _ => list_sum (map (fun k => init_volume (e k)) order)
  | _ => 0
  end.
Definition rg_ids (op : rgop) : nat :=
  match op with RgCreate _ _ _ | RgAddName _ _ _ _ _ | RgPusherName _ _ _ _ => 1 | _ => 0 end.
Definition y_ids (op : yop) : nat :=
  match op with YMeterName _ _ _ => 1 | YCompName order _ _ _ _ => length order | YReg g => rg_ids g | _ => 0 end.
