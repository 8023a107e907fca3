(** Aggregators that share no memory, and what the values of a run with shared buffers are. *)
From Coq Require Import ZArith List Bool Arith.
From Verif Require Import Base ModelTypes ModelReducer ModelSeparator SpecSeparator ModelAggregator SpecAggregator ModelBuffers.
Import ListNotations.
Local Open Scope Z_scope.

(** Each aggregator for itself (ModelAggregator). *)
Definition ref_step (ne : nat -> list Z -> list Z) (op : bop) (gs : list (option agg)) : outcome (option sout * list (option agg)) :=
  match op with
  | BNew o clock rnd ts => g <- agg_new o clock rnd ts ;; Ok (None, gs ++ [Some g])
  | BCall i op =>
      match nth_error gs i with
      | Some (Some g) => '(o, g1) <- g_call ne op g ;; Ok (Some o, set_nth i (Some g1) gs)
      | _ => Ok (None, gs)
      end
  | BDel i =>
      match nth_error gs i with
      | Some (Some g) => Ok (None, set_nth i None gs)
      | _ => Ok (None, gs)
      end
  end.
Fixpoint ref_run (ne : nat -> list Z -> list Z) (gs : list (option agg)) (ops : list bop) : outcome (list (option sout) * list (option agg)) :=
  match ops with
  | [] => Ok ([], gs)
  | op :: t => '(o, g1) <- ref_step ne op gs ;; '(os, g2) <- ref_run ne g1 t ;; Ok (o :: os, g2)
  end.
(** The results without the capacities of the vectors. *)
Definition values_of (o : pout) : sout := mk_sout (po_bool o) (map pc_rec (po_handler o)) (option_map pc_rec (po_popped o)).
Definition results {A B C} (f : A -> B) (x : outcome (list A * C)) : outcome (list B) := '(l, _) <- x ;; Ok (map f l).

(** The vectors an aggregator points to; all of them. *)
Definition rows_of (g : option pagg) : list nat := match g with Some g => pr_rows (t_red (a_sep g)) | None => [] end.
Definition in_use (s : store) : list nat := flat_map rows_of (b_aggs s).
(** A vector exists that has not been deleted. *)
Definition live (b : nat) (m : mem) : Prop := exists v, nth_error (m_heap m) b = Some (Some v).
(** The memory an aggregator holds: the capacities of all its vectors. *)
Definition cap_at (m : mem) (b : nat) : nat := match nth_error (m_heap m) b with Some (Some v) => v_cap v | _ => 0%nat end.
Definition held (g : pagg) (m : mem) : nat :=
  (list_sum (map pc_cap (a_list g)) + list_sum (map pc_cap (t_list (a_sep g))) + list_sum (map (cap_at m) (pr_rows (t_red (a_sep g)))))%nat.
(** How many vectors those are. *)
Definition vectors (g : pagg) : nat := (length (a_list g) + length (t_list (a_sep g)) + length (pr_rows (t_red (a_sep g))))%nat.
(** Every aggregator is made with a reducer_limit of at most [L]. *)
Definition limits_at_most (L : nat) (ops : list bop) : Prop :=
  Forall (fun op => match op with BNew o _ _ _ => (o_limit (so_red (ao_sep o)) <= L)%nat | _ => True end) ops.
(** std::nth_element moves elements within its range; all that matters here. *)
Definition same_length (ne : nat -> list Z -> list Z) : Prop := forall k l, length (ne k l) = length l.
(** The records a call hands out. *)
Definition handed (o : option pout) : list prec := match o with Some o => po_handler o ++ match po_popped o with Some x => [x] | None => [] end | None => [] end.
(** The places of the finished records that size() leaves out. *)
Definition spare (l : list prec) : nat := list_sum (map (fun x => pc_cap x - length (ad_data (pc_rec x)))%nat l).
