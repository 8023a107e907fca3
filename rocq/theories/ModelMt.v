(** wrtstat/aggregator/aggregator_mt.cpp: every member function locks _mutex (std::lock_guard) and then runs the function of
    basic_aggregator.  The transition system below interleaves the statements of any number of threads. *)
From Coq Require Import ZArith List Bool Arith.
From Verif Require Import Base ModelTypes ModelReducer ModelSeparator SpecSeparator ModelAggregator SpecAggregator.
Import ListNotations.

Section Machine.
  (** Shared state, calls, results *)
  Variables (S C R : Type).

  (** The body of a member function: any sequence of steps, each of which reads and writes the shared state and decides how
      to go on. *)
  Inductive prog := Ret (r : R) | Do (f : S -> S * prog).
  (** The body run alone *)
  Fixpoint eval (p : prog) (s : S) : R * S :=
    match p with
    | Ret r => (r, s)
    | Do f => match f s with (s', p') => eval p' s' end
    end.

  (** Which code a call runs inside the lock *)
  Variable body : C -> prog.

  (** A thread: the calls it still has to make, the call it is in (holding the mutex), the results it has got so far *)
  Record mthread := mk_mthread { todo : list C; inside : option (C * prog); got : list R }.
  (** _mutex (locked or not) and the aggregator *)
  Record mstate := mk_mstate { m_locked : bool; m_obj : S; m_threads : list mthread }.

  Inductive mstep : mstate -> mstate -> Prop :=
  (* std::lock_guard lk(_mutex) *)
  | m_acquire : forall o a c cs g b,
      mstep (mk_mstate false o (a ++ mk_mthread (c :: cs) None g :: b))
            (mk_mstate true o (a ++ mk_mthread cs (Some (c, body c)) g :: b))
  (* one statement of the body *)
  | m_body : forall k o o' a c cs f p' g b, f o = (o', p') ->
      mstep (mk_mstate k o (a ++ mk_mthread cs (Some (c, Do f)) g :: b))
            (mk_mstate k o' (a ++ mk_mthread cs (Some (c, p')) g :: b))
  (* return: ~lock_guard *)
  | m_return : forall k o a c cs r g b,
      mstep (mk_mstate k o (a ++ mk_mthread cs (Some (c, Ret r)) g :: b))
            (mk_mstate false o (a ++ mk_mthread cs None (g ++ [r]) :: b)).

  Inductive msteps : mstate -> mstate -> Prop :=
  | ms_refl : forall s, msteps s s
  | ms_step : forall s s1 s2, msteps s s1 -> mstep s1 s2 -> msteps s s2.

  (** The threads have programs [ps]. *)
  Definition m_init (o : S) (ps : list (list C)) : mstate := mk_mstate false o (map (fun p => mk_mthread p None []) ps).
End Machine.
Arguments Ret {S R} r.
Arguments Do {S R} f.
Arguments eval {S R} p s.
Arguments mk_mthread {S C R} todo inside got.
Arguments todo {S C R} m.
Arguments inside {S C R} m.
Arguments got {S C R} m.
Arguments m_locked {S C R} m.
Arguments m_obj {S C R} m.
Arguments m_threads {S C R} m.
Arguments mstep {S C R} body s1 s2 : rename.
Arguments msteps {S C R} body s1 s2 : rename.
Arguments m_init {S C R} o ps.

(** The member functions of aggregator_mt: those of basic_aggregator and size(), aggregator_mt.cpp:10-113 *)
Inductive mtcall := MtCall (op : gop) | MtSize.
(** What one of them does when run alone; an undefined state stays undefined. *)
Definition mt_do (ne : nat -> list Z -> list Z) (c : mtcall) (s : outcome agg) : outcome (sout + nat) * outcome agg :=
  match s with
  | Ok g =>
      match c with
      | MtCall op => match g_call ne op g with
                     | Ok (r, g') => (Ok (inl r), Ok g')
                     | Ub => (Ub, Ub)
                     | Exn => (Exn, Exn)
                     end
      | MtSize => (Ok (inr (g_size g)), Ok g)
      end
  | Ub => (Ub, Ub)
  | Exn => (Exn, Exn)
  end.
