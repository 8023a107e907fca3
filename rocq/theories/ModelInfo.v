(** Merging of summary records: wrtstat/aggregator/api/{reduced_info,aggregated_info}.hpp. *)
From Coq Require Import ZArith List Bool.
From Verif Require Import Base ModelTypes ModelRegistry.
Import ListNotations.
Local Open Scope Z_scope.

(** reduced_info::operator+=, reduced_info.hpp:23-41.  Signed overflow of the products, of their sum and of the quotient
    is undefined; the conversions to value_type wrap (to_i64). *)
Definition ri_merge (a v : rinfo) : outcome rinfo :=
  if ri_ts a =? 0 then Ok v else
  let n := u64 (ri_count a + ri_count v) in
  avg <- (if negb (n =? 0) then
            x <- chk (to_i64 (ri_count a) * ri_avg a) ;;
            y <- chk (to_i64 (ri_count v) * ri_avg v) ;;
            s <- chk (x + y) ;;
            chk (Z.quot s (to_i64 n))
          else
            s <- chk (ri_avg a + ri_avg v) ;; Ok (Z.quot s 2)) ;;
  Ok (mk_rinfo (ri_ts a) n (u64 (ri_lossy a + ri_lossy v)) (Z.min (ri_min a) (ri_min v)) (Z.min (ri_max a) (ri_max v)) avg).

(** aggregated_info = reduced_info + aggregated_perc, aggregated_info.hpp:11-17 *)
Record ainfo := mk_ainfo { ai_info : rinfo; ai_perc : perc }.

(** operator< of std::pair, used by std::sort *)
Definition pair_leb (a b : Z * Z) : bool := (fst a <? fst b) || ((fst a =? fst b) && (snd a <=? snd b)).
Fixpoint pinsert (x : Z * Z) (l : list (Z * Z)) : list (Z * Z) :=
  match l with
  | [] => [x]
  | y :: t => if pair_leb x y then x :: l else y :: pinsert x t
  end.
Fixpoint psort (l : list (Z * Z)) : list (Z * Z) :=
  match l with [] => [] | x :: t => pinsert x (psort t) end.

(** arr1[i].first = p*(count/k+1); arr1[i].second = p;  aggregated_info.hpp:33-43 *)
Definition weighed (p count k : Z) : outcome (Z * Z) := w <- chk (p * (Z.quot count k + 1)) ;; Ok (w, p).
Definition weighed5 (p : perc) (count : Z) : outcome (list (Z * Z)) :=
  a <- weighed (p50 p) count 2 ;; b <- weighed (p80 p) count 3 ;; c <- weighed (p95 p) count 6 ;;
  d <- weighed (p99 p) count 10 ;; e <- weighed (p100 p) count 100 ;; Ok [a; b; c; d; e].
(** arr1[i].second after sorting *)
Definition second_at (l : list (Z * Z)) (i : nat) : Z := snd (nth i l (0, 0)).

(** aggregated_info::operator+=, aggregated_info.hpp:19-62.  count1 is read after the counts have been added (line 29). *)
Definition ai_merge (a v : ainfo) : outcome ainfo :=
  if ri_ts (ai_info a) =? 0 then Ok v else
  i <- ri_merge (ai_info a) (ai_info v) ;;
  l1 <- weighed5 (ai_perc a) (to_i64 (ri_count i)) ;;
  l2 <- weighed5 (ai_perc v) (to_i64 (ri_count (ai_info v))) ;;
  let arr1 := psort (l1 ++ l2) in
  let arr2 := isort [second_at arr1 3; second_at arr1 6; second_at arr1 7; second_at arr1 8; second_at arr1 9] in
  Ok (mk_ainfo i (mk_perc (nth 0 arr2 0) (nth 1 arr2 0) (nth 2 arr2 0) (nth 3 arr2 0) (nth 4 arr2 0))).
