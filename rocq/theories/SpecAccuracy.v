(** Vocabulary of C87: how good the percentiles of a record are. *)
From Coq Require Import ZArith List Bool.
From Verif Require Import Base SortFacts ModelTypes ModelReducer SpecReducer.
Import ListNotations.
Local Open Scope Z_scope.

(** The percentiles a record reports, each with its percentage. *)
Definition percents (p : perc) : list (nat * Z) := [(50%nat, p50 p); (80%nat, p80 p); (95%nat, p95 p); (99%nat, p99 p)].
(** How many of the values are at most, and how many at least, [x]. *)
Definition below (x : Z) (vs : list Z) : nat := length (filter (fun v => v <=? x) vs).
Definition above (x : Z) (vs : list Z) : nat := length (filter (fun v => x <=? v) vs).
(** The number of values a record keeps of [vs] before thinning. *)
Definition kept_size (o : ropts) (vs : list Z) : nat := Nat.min (length vs) (o_limit o).
