(** Objects of class aggregator being moved.  reducer, separator, basic_aggregator and aggregator declare no copy, move or
    destructor, so that the compiler gives them a move constructor, member by member (no move assignment: they have const
    members, reducer.hpp:72, separator.hpp:76).  aggregator_mt has a mutex member (aggregator_mt.hpp) and cannot be moved. *)
From Coq Require Import ZArith List Bool.
From Verif Require Import Base ModelTypes ModelReducer SpecReducer ModelSeparator SpecSeparator ModelAggregator SpecAggregator.
Import ListNotations.

(** What is left behind: numbers and flags are copied (reducer.hpp:72-82, separator.hpp:76-78, basic_aggregator.hpp:95-96), the
    vector of rows, the two lists and the shared_ptr are empty (reducer.hpp:83, separator.hpp:79, basic_aggregator.hpp:97-98).
    The two std::function of the allocator (allocator.hpp:35-36) are not in the state. *)
Definition red_left (r : reducer) : reducer :=
  mk_reducer (r_opt r) (r_cur r) (r_empty r) (r_min r) (r_max r) (r_lossy r) (r_total r) (r_avgc r) (r_avg r) [].
Definition sep_left (s : sep) : sep := mk_sep (red_left (s_red s)) (s_step s) (s_next s) (s_res s) [].
Definition agg_left (g : agg) : agg := mk_agg (sep_left (g_sep g)) (g_out g) (g_enabled g) [] false.

(** A program with objects x_0, x_1, ... held by std::shared_ptr, numbered in the order they are made, and with pushers.
    [av_tok]: which _id object the member _id points to; the constructor of x_i makes number i (basic_aggregator.cpp:6-11). *)
Record avar := mk_avar { av_g : agg; av_tok : option nat }.
(** basic_aggregator.hpp:101-147: a pusher has weak pointers to its object and to the _id of the object when it was made *)
Record apusher := mk_apusher { ap_var : nat; ap_tok : option nat; ap_h : bool }.
Record aprog := mk_aprog { pr_vars : list (option avar); pr_push : list apusher }.

Inductive aop :=
| ANew (o : aopts) (c rnd ts : Z)           (* make_shared<aggregator>(ts, o) *)
| AMove (j : nat)                           (* make_shared<aggregator>(std::move( *x_j )) *)
| ACall (i : nat) (op : gop)                (* x_i->op(...) *)
| AMake (i : nat) (h : bool)                (* x_i->create_..._pusher(handler) *)
| APush (p : nat) (x : sample) (c1 c2 : Z)  (* call of pusher number p *)
| ADrop (i : nat).                          (* x_i is destroyed *)
(** What comes of it.  [ADead]: a pusher that did nothing, for the caller the same as [ARecs []]. *)
Inductive aout := ANone | AAns (o : sout) | ARecs (l : list adata) | ADead.

Section AggMoves.
  Variable ne : nat -> list Z -> list Z.
  Definition av_at (i : nat) (s : aprog) : outcome avar :=
    match nth_error (pr_vars s) i with Some (Some v) => Ok v | _ => Ub end.
  (** the _id object number k still exists: some object's _id points to it *)
  Definition tok_alive (k : nat) (s : aprog) : bool :=
    existsb (fun v => match v with Some v => match av_tok v with Some k' => Nat.eqb k k' | None => false end | None => false end) (pr_vars s).
  Definition av_after (g : agg) (v : avar) : avar := mk_avar g (if g_id g then av_tok v else None).
  Definition am_do (op : aop) (s : aprog) : outcome (aout * aprog) :=
    match op with
    | ANew o c rnd ts => g <- agg_new o c rnd ts ;; Ok (ANone, mk_aprog (pr_vars s ++ [Some (mk_avar g (Some (length (pr_vars s))))]) (pr_push s))
    | AMove j => v <- av_at j s ;; Ok (ANone, mk_aprog (set_nth j (Some (mk_avar (agg_left (av_g v)) None)) (pr_vars s) ++ [Some v]) (pr_push s))
    | ACall i op => v <- av_at i s ;; '(o, g) <- g_call ne op (av_g v) ;; Ok (AAns o, mk_aprog (set_nth i (Some (av_after g v)) (pr_vars s)) (pr_push s))
    | AMake i h => v <- av_at i s ;; Ok (ANone, mk_aprog (pr_vars s) (pr_push s ++ [mk_apusher i (av_tok v) h]))
    | APush p x c1 c2 =>
        match nth_error (pr_push s) p with
        | None => Ub
        | Some q =>
            match nth_error (pr_vars s) (ap_var q), ap_tok q with
            | Some (Some v), Some k =>
                if tok_alive k s
                then '(o, g) <- g_call ne (GoPush x (ap_h q) c1 c2) (av_g v) ;;
                     Ok (ARecs (out_handler o), mk_aprog (set_nth (ap_var q) (Some (av_after g v)) (pr_vars s)) (pr_push s))
                else Ok (ADead, s)
            | _, _ => Ok (ADead, s)
            end
        end
    | ADrop i => v <- av_at i s ;; Ok (ANone, mk_aprog (set_nth i None (pr_vars s)) (pr_push s))
    end.
  Fixpoint am_run (s : aprog) (ops : list aop) : outcome (list aout * aprog) :=
    match ops with
    | [] => Ok ([], s)
    | op :: t => '(r, s1) <- am_do op s ;; '(rs, s2) <- am_run s1 t ;; Ok (r :: rs, s2)
    end.
  Definition am_start : aprog := mk_aprog [] [].
End AggMoves.
