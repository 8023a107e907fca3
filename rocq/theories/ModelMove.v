(** multi_aggregator objects being moved: the move constructor and the move assignment. *)
From Coq Require Import ZArith List Bool.
From Verif Require Import Base ModelTypes ModelReducer ModelSeparator ModelAggregator ModelRegistry ModelMulti SpecMulti.
Import ListNotations.

(** What a moved-from multi_aggregator is: the options are plain numbers and stay, the two vectors are empty. *)
Definition mv_left (m : multi) : multi := mk_multi (mu_opt m) [].

(** The statements of a program with several multi_aggregator variables, numbered in the order of their declaration:
    a declaration from options, a declaration from std::move(x_j), an assignment x_i = std::move(x_j), a call x_i.c(…).
    Not modelled: destruction of a variable, and moves by more than one thread at a time (the move operations take
    no lock). *)
Inductive mvop := VNew (o : maopts) | VMove (j : nat) | VAssign (i j : nat) | VCall (i : nat) (c : mop).

Section Moves.
  Variable ne : nat -> list Z -> list Z.
  Variable hash : name -> Z.
  (** A variable that was not declared is outside the language: Ub. *)
  Definition mv_at (i : nat) (xs : list multi) : outcome multi :=
    match nth_error xs i with Some m => Ok m | None => Ub end.
  Definition mv_do (op : mvop) (xs : list multi) : outcome (option mout * list multi) :=
    match op with
    (** multi_aggregator(const options_type&), multi_aggregator.cpp:12-16 *)
    | VNew o => Ok (None, xs ++ [ma_new o])
    (** multi_aggregator(multi_aggregator&&), multi_aggregator.cpp:18-24: moving a std::vector leaves it empty *)
    | VMove j => m <- mv_at j xs ;; Ok (None, set_nth j (mv_left m) xs ++ [m])
    (** operator=(multi_aggregator&&), multi_aggregator.cpp:26-33: options copied, vectors moved. There is no test
        for self-assignment: v = std::move(v) leaves a vector valid but unspecified, and in libstdc++ empty; that is
        what happens here when i = j. *)
    | VAssign i j => m <- mv_at j xs ;; _ <- mv_at i xs ;;
        Ok (None, if Nat.eqb i j then set_nth i (mv_left m) xs else set_nth i m (set_nth j (mv_left m) xs))
    | VCall i c => m <- mv_at i xs ;; '(r, m1) <- ma_do ne hash c m ;; Ok (Some r, set_nth i m1 xs)
    end.
  Fixpoint mv_run (xs : list multi) (ops : list mvop) : outcome (list (option mout) * list multi) :=
    match ops with
    | [] => Ok ([], xs)
    | op :: t => '(r, xs1) <- mv_do op xs ;; '(rs, xs2) <- mv_run xs1 t ;; Ok (r :: rs, xs2)
    end.
End Moves.
