(** What a user can say about a reducer when allocations fail. *)
From Coq Require Import ZArith List Bool.
From Verif Require Import Base ModelTypes ModelReducer SpecReducer ModelAlloc.
Import ListNotations.
Local Open Scope Z_scope.

(** What has come in since construction, the last clear() or the last record: [a_tried] the values tried (stored, counted as lost, or
    refused by a failed allocation), [a_extremes] the same with the extremes of merged records, [a_declared] the events declared by calls
    that returned, [a_extra] the values taken over and above the declared ones, [a_seen]: detach() will give a record. *)
Record account := mk_account { a_tried : list Z; a_extremes : list Z; a_declared : Z; a_extra : Z; a_seen : bool }.
Definition account0 : account := mk_account [] [] 0 0 false.

(** An add that returned gives all it has.  One that threw at the value number [i] has tried the values up to that one and declares
    nothing; the [i] values before it are kept (or lost) like those of any other call. *)
Definition a_step (a : account) (q : rop * option failure * fend) : account :=
  match q with
  | (op, _, FRet d) =>
      match op with
      | OpClear => account0
      | OpDetach => match d with Some _ => account0 | None => a end
      | OpReduce | OpPeek => a
      | _ => mk_account (a_tried a ++ op_values op) (a_extremes a ++ op_extremes op) (a_declared a + op_declared op)
                        (a_extra a + op_excess op) true
      end
  | (op, Some (AtValue i _), FThrew) =>
      mk_account (a_tried a ++ firstn (S i) (op_values op)) (a_extremes a ++ firstn (S i) (op_values op)) (a_declared a)
                 (a_extra a + Z.of_nat i) (match op with OpAddList _ => a_seen a | _ => true end)
  | _ => a
  end.
Definition account_of (ops : list (rop * option failure)) (es : list fend) : account := fold_left a_step (combine ops es) account0.

(** No allocation fails while the rows behind the first are given back to the pool. *)
Definition not_at_free (q : rop * option failure) : Prop := snd q <> Some AtFree.
(** Every allocation succeeds. *)
Definition no_failure (q : rop * option failure) : Prop := snd q = None.
(** [a] is the record detach() returns after these calls, [ac] the account of what they brought in. *)
Definition f_publishes (ne : nat -> list Z -> list Z) (o : ropts) (ops : list (rop * option failure)) (ac : account) (a : adata) : Prop :=
  exists es s s', f_run ne (Sound (reducer_new o)) ops = Ok (es, s) /\ ac = account_of ops es /\
    f_call ne OpDetach None s = Ok (FRet (Some a), s').
