(** What size(), filled(), empty(), ready() and aggregators_count() ought to say. *)
From Coq Require Import ZArith List Bool Arith.
From Verif Require Import Base ModelTypes ModelReducer SpecReducer ModelSeparator SpecSeparator ModelAggregator SpecAggregator ModelRegistry SpecRegistry.
Import ListNotations.

(** The number of values a reducer holds: every value given to it is kept until [limit * levels] are held; reduce() keeps at
    most [limit]; clear() and detach() keep none. *)
Definition held_step (o : ropts) (n : nat) (op : rop) : nat :=
  match op with
  | OpReduce => Nat.min n (o_limit o)
  | OpPeek => n
  | OpClear | OpDetach => 0
  | _ => Nat.min (n + length (op_values op)) (o_limit o * o_levels o)
  end.
Definition held (o : ropts) (ops : list rop) : nat := fold_left (held_step o) ops 0%nat.

(** The names registered after some calls: created and not deleted since; no name twice. *)
Definition put_name (n : name) (l : list name) : list name :=
  match n with [] => l | _ => if existsb (name_eqb n) l then l else n :: l end.
Definition names_step (l : list name) (op : rgop) : list name :=
  match op with
  | RgCreate _ n _ | RgAddName _ n _ _ _ | RgPusherName _ n _ _ => put_name n l
  | RgDel n => filter (fun m => negb (name_eqb m n)) l
  | _ => l
  end.
Definition names_after (ops : list rgop) : list name := fold_left names_step ops [].
(** The greatest number of names registered at the same time. *)
Definition peak (ops : list rgop) : nat :=
  fold_right Nat.max 0%nat (map (fun i => length (names_after (firstn i ops))) (seq 0 (S (length ops)))).

(** The number of values in a list of records. *)
Definition values_in (l : list adata) : nat := fold_right (fun a n => length (ad_data a) + n)%nat 0%nat l.
