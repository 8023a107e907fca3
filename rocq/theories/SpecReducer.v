(** Calls on a reducer, and what a user expects of them (independent of the implementation). *)
From Coq Require Import ZArith List Bool.
From Verif Require Import Base ModelTypes ModelReducer.
Import ListNotations.
Local Open Scope Z_scope.

(** A public call on a reducer object. *)
Inductive rop :=
| OpAdd (v count : Z)                 (* add(v, count) *)
| OpAddArr (vs : list Z) (count : Z)  (* add(values, count) *)
| OpAddVec (vs : list Z)              (* add(values) *)
| OpAddList (vs : list Z)             (* add({v1,...}) *)
| OpAddRed (d : rdata)                (* add(reduced_data) *)
| OpReduce                            (* reduce() *)
| OpPeek                              (* get_reduced() *)
| OpClear                             (* clear() *)
| OpDetach.                           (* detach() *)

(** The values a call hands over, and the number of events it declares. *)
Definition op_values (op : rop) : list Z :=
  match op with
  | OpAdd v _ => [v]
  | OpAddArr vs _ | OpAddVec vs | OpAddList vs => vs
  | OpAddRed d => rd_data d
  | _ => []
  end.
Definition op_declared (op : rop) : Z :=
  match op with
  | OpAdd _ c => c
  | OpAddArr _ c => c
  | OpAddVec vs | OpAddList vs => Z.of_nat (length vs)
  | OpAddRed d => ri_count (rd_info d)
  | _ => 0
  end.
(** Everything that must influence min and max: the values, and the non-zero extremes of a merged record. *)
Definition op_extremes (op : rop) : list Z :=
  op_values op ++
  match op with
  | OpAddRed d => filter (fun x => negb (x =? 0)) [ri_min (rd_info d); ri_max (rd_info d)]
  | _ => []
  end.
(** A call is honest when it declares at least as many events as it hands over values. *)
Definition op_honest (op : rop) : Prop := Z.of_nat (length (op_values op)) <= op_declared op.
(** Number of values handed over in excess of the declared count. *)
Definition op_excess (op : rop) : Z := Z.max 0 (Z.of_nat (length (op_values op)) - op_declared op).

(** Arguments have their C++ types. *)
Definition i64 (z : Z) : Prop := i64_min <= z <= i64_max.
Definition is_u64 (z : Z) : Prop := 0 <= z < two64.
Definition op_typed (op : rop) : Prop := Forall i64 (op_extremes op) /\ is_u64 (op_declared op).
(** Values for which the double conversion in detach is defined. *)
Definition val_safe (z : Z) : Prop := - 2 ^ 63 <= z < 2 ^ 63 - 512.
Definition op_safe (op : rop) : Prop := Forall val_safe (op_values op).

(** The add calls since construction or the last clear()/detach(). *)
Definition window_step (w : list rop) (op : rop) : list rop :=
  match op with
  | OpClear | OpDetach => []
  | OpReduce | OpPeek => w
  | _ => w ++ [op]
  end.
Definition window (ops : list rop) : list rop := fold_left window_step ops [].

Definition values (w : list rop) : list Z := flat_map op_values w.
Definition extremes (w : list rop) : list Z := flat_map op_extremes w.
Definition declared (w : list rop) : Z := fold_right Z.add 0 (map op_declared w).
Definition excess (w : list rop) : Z := fold_right Z.add 0 (map op_excess w).

(** [m] is the least (greatest) element of [l]. *)
Definition is_min (m : Z) (l : list Z) : Prop := In m l /\ Forall (fun x => m <= x) l.
Definition is_max (m : Z) (l : list Z) : Prop := In m l /\ Forall (fun x => x <= m) l.

(** Executing calls on the model; the returned records of detach/get_reduced are dropped here. *)
Section Run.
  Variable ne : nat -> list Z -> list Z.
  Definition r_step (r : reducer) (op : rop) : outcome reducer :=
    match op with
    | OpAdd v c => Ok (r_add v c r)
    | OpAddArr vs c => Ok (r_add_arr vs c r)
    | OpAddVec vs => Ok (r_add_vec vs r)
    | OpAddList vs => Ok (r_add_list vs r)
    | OpAddRed d => Ok (r_add_red d r)
    | OpReduce => r_reduce ne r
    | OpPeek => _ <- r_get_reduced ne r ;; Ok r
    | OpClear => Ok (r_clear r)
    | OpDetach => '(_, r') <- r_detach ne r ;; Ok r'
    end.
  Fixpoint r_run (r : reducer) (ops : list rop) : outcome reducer :=
    match ops with
    | [] => Ok r
    | op :: t => r' <- r_step r op ;; r_run r' t
    end.
End Run.

(** * Stratified thinning in sorting mode *)
(** Level [j]: the j-th block of [limit] consecutive values. *)
Definition block (limit : nat) (vs : list Z) (j : nat) : list Z := firstn limit (skipn (j * limit) vs).
(** Number of levels in use after adding [vs] (limit > 0). *)
Definition used_levels (limit levels : nat) (vs : list Z) : nat :=
  Nat.min levels ((length vs + limit - 1) / limit).
(** The level that supplies position [i] of the published data, when [n] levels are in use and the last one
    holds [m] values: levels in turn, until the last level is exhausted at one of its turns; from then on level 0. *)
Definition supplier (n m i : nat) : nat :=
  if (m <? n * ((i + 1) / n))%nat then O else (i mod n)%nat.
(** The [k]-th smallest value of a non-empty level, or its largest value when it has at most [k]. *)
Definition rank_clipped (l : list Z) (k : nat) (x : Z) : Prop := rank_is l (Nat.min k (length l - 1)) x.

(** [a] is the record detach() returns after the calls [ops] on a new reducer with options [o]. *)
Definition publishes (ne : nat -> list Z -> list Z) (o : ropts) (ops : list rop) (a : adata) : Prop :=
  exists r r', r_run ne (reducer_new o) ops = Ok r /\ r_detach ne r = Ok (Some a, r').
(** The reducer runs in a fixed mode: sorting or nth, not adaptive. *)
Definition fixed_mode (o : ropts) : Prop :=
  o_mode o <> Adapt \/ o_levels o = 0%nat \/ (16 < o_limit o / o_levels o)%nat.
Definition sorting_mode (o : ropts) : Prop :=
  o_mode o = Sorting \/ (o_mode o = Adapt /\ (o_levels o = 0 \/ 16 < o_limit o / o_levels o)%nat).
(** Agreement of two records on everything but the sample of values. *)
Definition same_summary (a b : adata) : Prop :=
  ad_count a = ad_count b /\ ad_lossy a = ad_lossy b /\ ad_min a = ad_min b /\ ad_max a = ad_max b /\
  ad_avg a = ad_avg b /\ length (ad_data a) = length (ad_data b).
