(** The running average of a reducer: IEEE binary64, round to nearest even
    (Coq's standard SpecFloat formalisation of IEEE 754, precision 53, emax 1024). *)
From Coq Require Import ZArith List Bool Floats.SpecFloat.
From Verif Require Import Base.
Import ListNotations.
Local Open Scope Z_scope.

Definition f64 : Type := spec_float.
Definition f64_add : f64 -> f64 -> f64 := SFadd 53 1024.
Definition f64_sub : f64 -> f64 -> f64 := SFsub 53 1024.
Definition f64_div : f64 -> f64 -> f64 := SFdiv 53 1024.

(** static_cast<double>(integer): correctly rounded conversion. *)
Definition f64_of_Z (z : Z) : f64 := binary_normalize 53 1024 z 0 false.

(** double _average = 0.0;  wrtstat/aggregator/reducer.hpp:82 *)
Definition avg0 : f64 := S754_zero false.

(** _average += ( static_cast<double>(v) - _average) / static_cast<double>( _average_count + 1 );
    wrtstat/aggregator/reducer.cpp:272.  [k] is _average_count + 1 (a size_t). *)
Definition avg_step (a : f64) (k v : Z) : f64 :=
  f64_add a (f64_div (f64_sub (f64_of_Z v) a) (f64_of_Z k)).

(** Truncation toward zero of a finite number m * 2^e. *)
Definition f64_trunc (s : bool) (m : positive) (e : Z) : Z :=
  let t := if 0 <=? e then Zpos m * 2 ^ e else Zpos m / 2 ^ (- e) in
  if s then - t else t.

(** static_cast<value_type>(_average), wrtstat/aggregator/reducer.cpp:183: truncation toward zero,
    undefined when the truncated value does not fit in int64 (or is not finite). *)
Definition f64_to_i64 (a : f64) : outcome Z :=
  match a with
  | S754_zero _ => Ok 0
  | S754_finite s m e => chk (f64_trunc s m e)
  | S754_infinity _ | S754_nan => Ub
  end.
