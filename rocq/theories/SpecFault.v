(** What a user can say about a registry when its calls fail: the calls addressed to a name, failing ones among them. *)
From Coq Require Import ZArith List Bool Arith Ascii.
From Verif Require Import Base ModelTypes ModelReducer SpecReducer ModelSeparator SpecSeparator ModelAggregator SpecAggregator
  ModelRegistry SpecRegistry ModelFault.
Import ListNotations.
Local Open Scope Z_scope.

(** A creation whose initializer threw, as one whose initializer had nothing to give. *)
Definition no_data (e : cenv) : cenv := mk_cenv (ce_clock e) (ce_rnd e) (ce_c1 e) (ce_c2 e) None (ce_pick e).

(** What a call that ended with [out] in state [r] is for the aggregator named [n] <> "".  A creation that threw is none, unless it was
    the initializer that threw: then it has created the aggregator without data.  A del that threw is a del.  A pop_all that threw has
    reached the names up to the one whose record it lost; it goes by increasing ids. *)
Definition x_addressed (n : name) (r : registry) (op : xop) (out : xout) : option cop :=
  match op, out with
  | XOp op, _ => addressed n r op
  | XCreate x e m now, XThrew =>
      match x with XInit => if name_eqb m n then Some (CoCreate (no_data e) now) else None | _ => None end
  | XCreate _ e m now, _ => if name_eqb m n then Some (CoCreate e now) else None
  | XDel m, _ => if name_eqb m n then Some CoDel else None
  | XPopAll _ f clk, XPopThrew _ (m, _) =>
      match find_name n r, find_name m r with
      | Some (id, _, _), Some (id', _, _) => if id <=? id' then Some (CoPopAll f (clk n)) else None
      | _, _ => None
      end
  | XPopAll _ f clk, _ => Some (CoPopAll f (clk n))
  end.
(** What an answer says about [n].  The record lost counts as popped. *)
Definition x_view (n : name) (o : xout) : cout :=
  match o with
  | XRet o => view n o
  | XThrew => CUnit
  | XPopThrew l p => CPopped (m_find name_eqb n (l ++ [p]))
  end.
Section Project.
  Variable ne : nat -> list Z -> list Z.
  Fixpoint x_project (n : name) (r : registry) (ops : list xop) : list (cop * cout) :=
    match ops with
    | [] => []
    | op :: t =>
        match x_do ne op r with
        | Ok (o, r1) => match x_addressed n r op o with Some c => [(c, x_view n o)] | None => [] end ++ x_project n r1 t
        | _ => []
        end
    end.
  Definition x_clean (r : registry) (op : xop) : Prop := match op with XOp op => clean r op | _ => True end.
  Fixpoint x_all_clean (r : registry) (ops : list xop) : Prop :=
    match ops with
    | [] => True
    | op :: t => x_clean r op /\ match x_do ne op r with Ok (_, r1) => x_all_clean r1 t | _ => True end
    end.
  (** [r] is a state of a registry with options [o] after some history of [n] calls, some of which may have failed, but none between the
      two tables of names. *)
  Definition not_between (op : xop) : Prop := match op with XCreate XIndex _ _ _ => False | _ => True end.
  Definition x_reachable (o : rgopts) (n : nat) (r : registry) : Prop :=
    exists ops outs, length ops = n /\ Forall not_between ops /\ x_run ne (rg_new o) ops = Ok (outs, r).
  (** No growth of the array of aggregators has failed. *)
  Definition grown (op : xop) : Prop := match op with XCreate XResize _ _ _ => False | _ => True end.
  (** The call without the failure. *)
  Definition plain (op : xop) : rgop :=
    match op with XOp op => op | XCreate _ e n now => RgCreate e n now | XDel n => RgDel n | XPopAll _ f clk => RgPopAll f clk end.
End Project.
