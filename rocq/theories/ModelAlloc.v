(** class reducer when memory runs out: what is left of it when an allocation inside a call throws std::bad_alloc.  Every other model
    assumes that allocations succeed.  No function of the class catches anything. *)
From Coq Require Import ZArith List Bool Arith.
From Verif Require Import Base ModelTypes ModelAvg ModelReducer SpecReducer.
Import ListNotations.
Local Open Scope Z_scope.

(** The allocations of add_, reducer.cpp:291-295: [FRow] _allocator.create() or the growth of _data (291; the row made is destroyed
    again), [FReserve] the reserve of the new row, which is already in _data (292), [FGrow] push_back(v) into an existing row (295).
    [FGrow] can only happen to a row whose reserve has failed; here it may happen to any row. *)
Inductive fault := FRow | FReserve | FGrow.

(** add_, reducer.cpp:270-296, left at the allocation [k]; [None]: it does not get to that allocation. *)
Definition r_add1_fail (k : fault) (v : Z) (r : reducer) : option reducer :=
  let avg' := avg_step (r_avg r) (u64 (r_avgc r + 1)) v in
  let avgc' := u64 (r_avgc r + 1) in
  let mn := Z.min (r_min r) v in
  let mx := Z.max (r_max r) v in
  let o := r_opt r in
  let d := r_data r in
  let dempty := match d with [] => true | _ => false end in
  let left (d : list (list Z)) := Some (mk_reducer o (r_cur r) (r_empty r) mn mx (r_lossy r) (r_total r) avgc' avg' d) in
  if dempty || (length (back d) =? o_limit o)%nat then
    if (length d =? o_levels o)%nat || (o_limit o =? 0)%nat then None
    else
      let d1 := if rmode_eqb (r_cur r) Sorting && negb dempty then upd_last isort d else d in
      match k with FRow => left d1 | FReserve => left (d1 ++ [[]]) | FGrow => None end
  else match k with FGrow => left d | _ => None end.

(** The loop over the values in the add overloads, left at the [i]-th value. *)
Definition r_add_all_fail (i : nat) (k : fault) (vs : list Z) (r : reducer) : option reducer :=
  match nth_error vs i with
  | None => None
  | Some v => r_add1_fail k v (r_add_all (firstn i vs) r)
  end.

(** add(initializer_list), reducer.cpp:149-155, clears _empty after the loop, the other overloads (126, 135) before it. *)
Definition r_seen (op : rop) (r : reducer) : reducer :=
  match op with
  | OpAddList _ => r
  | _ => mk_reducer (r_opt r) (r_cur r) false (r_min r) (r_max r) (r_lossy r) (r_total r) (r_avgc r) (r_avg r) (r_data r)
  end.
Definition is_add (op : rop) : bool :=
  match op with OpAdd _ _ | OpAddArr _ _ | OpAddVec _ | OpAddList _ | OpAddRed _ => true | _ => false end.

(** Which allocation of a call fails.  [AtValue i k]: the allocation [k] for the [i]-th value of an add.  [AtStart]: the new record of
    detach(), reducer.cpp:179, or anything in get_reduced(), 168-172, which works on a copy.  [AtFree]: _allocator.free() of the last
    row in reduce(), 264-265 (the pool's deque grows, pool.hpp:86); the failure of an earlier row is not modelled. *)
Inductive failure := AtValue (i : nat) (k : fault) | AtStart | AtFree.

(** A reducer, or one in which the rows behind row 0 are null pointers: they were moved out (reducer.cpp:265), but resize(1) (267) was not
    reached.  Of the broken reducer [r_data] is row 0 only. *)
Inductive fred := Sound (r : reducer) | Broken (r : reducer).
Definition f_red (s : fred) : reducer := match s with Sound r | Broken r => r end.

(** How a call ends: it returns (with the record of detach/get_reduced), or bad_alloc leaves it. *)
Inductive fend := FRet (a : option adata) | FThrew.

Section WithNth.
  Variable ne : nat -> list Z -> list Z.

  (** A call none of whose allocations fails; SpecReducer.r_step with the record returned. *)
  Definition f_plain (op : rop) (r : reducer) : outcome (fend * fred) :=
    match op with
    | OpPeek => a <- r_get_reduced ne r ;; Ok (FRet a, Sound r)
    | OpDetach => '(a, r') <- r_detach ne r ;; Ok (FRet a, Sound r')
    | _ => r' <- r_step ne r op ;; Ok (FRet None, Sound r')
    end.
  (** reduce(), reducer.cpp:222-268, left at the last free(): reached when there are two rows or more *)
  Definition r_reduce_fail (r : reducer) : outcome (option reducer) :=
    if (length (r_data r) <? 2)%nat then Ok None else r1 <- r_reduce ne r ;; Ok (Some r1).
  (** A call on a sound reducer.  If it does not get to the allocation that would fail, it is an ordinary call. *)
  Definition f_sound (op : rop) (f : option failure) (r : reducer) : outcome (fend * fred) :=
    match f, op with
    | Some (AtValue i k), _ =>
        if is_add op then
          match r_add_all_fail i k (op_values op) r with
          | Some r1 => Ok (FThrew, Sound (r_seen op r1))
          | None => f_plain op r
          end
        else f_plain op r
    | Some AtStart, OpPeek => Ok (FThrew, Sound r)
    | Some AtStart, OpDetach => if r_empty r then f_plain op r else Ok (FThrew, Sound r)
    | Some AtFree, OpReduce =>
        p <- r_reduce_fail r ;; match p with Some r1 => Ok (FThrew, Broken r1) | None => f_plain op r end
    | Some AtFree, OpDetach =>
        if r_empty r then f_plain op r
        else p <- r_reduce_fail r ;; match p with Some r1 => Ok (FThrew, Broken r1) | None => f_plain op r end
    | _, _ => f_plain op r
    end.
  (** A call on a broken reducer: whatever looks at the last row dereferences a null pointer - add_ at reducer.cpp:278, reduce at 229
      or in lossy_count (235, 48), clone at 40; detach returns early when _empty (176); clear (115) drops the rows. *)
  Definition f_broken (op : rop) (r : reducer) : outcome (fend * fred) :=
    match op with
    | OpClear => Ok (FRet None, Sound (r_clear r))
    | OpDetach => if r_empty r then Ok (FRet None, Broken r) else Ub
    | OpReduce | OpPeek => Ub
    | _ => match op_values op with [] => r' <- r_step ne r op ;; Ok (FRet None, Broken r') | _ => Ub end
    end.
  Definition f_call (op : rop) (f : option failure) (s : fred) : outcome (fend * fred) :=
    match s with Sound r => f_sound op f r | Broken r => f_broken op r end.
  (** Calls one after another; for each the allocation that fails, if one does. *)
  Fixpoint f_run (s : fred) (ops : list (rop * option failure)) : outcome (list fend * fred) :=
    match ops with
    | [] => Ok ([], s)
    | (op, f) :: t => '(e, s1) <- f_call op f s ;; '(es, s2) <- f_run s1 t ;; Ok (e :: es, s2)
    end.
End WithNth.
