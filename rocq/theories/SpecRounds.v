(** The loop of separator::separate (separator.cpp:154-165) as the rounds it makes, independently of the model's loop. *)
From Coq Require Import ZArith List Bool.
From Verif Require Import Base ModelTypes ModelAvg ModelReducer.
Import ListNotations.
Local Open Scope Z_scope.

(** [rounds ne step ts next r n recs next' r']: from _next_time [next] and reducer [r] the loop for the time [ts] makes [n] rounds,
    producing [recs]. *)
Inductive rounds (ne : nat -> list Z -> list Z) (step ts : Z) : Z -> reducer -> nat -> list adata -> Z -> reducer -> Prop :=
| rounds_end next r : ts < next -> rounds ne step ts next r 0 [] next r
| rounds_none next r r1 n recs next' r' : next <= ts -> r_detach ne r = Ok (None, r1) ->
    rounds ne step ts (next + step) r1 n recs next' r' -> rounds ne step ts next r (S n) recs next' r'
| rounds_some next r x r1 n recs next' r' : next <= ts -> r_detach ne r = Ok (Some x, r1) ->
    rounds ne step ts (next + step) r1 n recs next' r' -> rounds ne step ts next r (S n) (ad_set_ts (next - step) x :: recs) next' r'.
(** How many windows have ended by [t], the first ending at [next]. *)
Definition elapsed (step next t : Z) : Z := if t <? next then 0 else (t - next) / step + 1.
