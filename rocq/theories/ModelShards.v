(** wrtstat/multi_aggregator/multi_aggregator.cpp used by several threads: every shard has its own mutex, and every access to a shard is made
    under std::lock_guard of that mutex.  The transition system interleaves the statements of any number of threads.  The handlers run inside the
    sections; they are taken to do nothing with the multi_aggregator itself (see C76's refutations for handlers that do). *)
From Coq Require Import ZArith List Bool Arith Ascii.
From Verif Require Import Base ModelTypes ModelReducer ModelSeparator SpecSeparator ModelAggregator SpecAggregator ModelRegistry ModelMt ModelMulti SpecMulti ModelLocks.
Import ListNotations.

Section Machine.
  (** State of a shard, critical sections, their results; which shard a section is about; the statements inside the lock *)
  Variables (S C R : Type) (at_ : C -> nat) (body : C -> prog S R).
  (** The mutexes (locked or not), the shards, the threads (as in ModelMt; [todo]: the sections a thread still has to run) *)
  Record hstate := mk_hstate { h_locks : list bool; h_objs : list S; h_threads : list (mthread S C R) }.

  Inductive hstep : hstate -> hstate -> Prop :=
  (* std::lock_guard<mutex_type> lk( *mtx ), multi_aggregator.cpp:40,49,65,76,87,99 *)
  | h_acquire : forall lks os ts i c cs g, nth_error ts i = Some (mk_mthread (c :: cs) None g) -> nth_error lks (at_ c) = Some false ->
      hstep (mk_hstate lks os ts) (mk_hstate (set_nth (at_ c) true lks) os (set_nth i (mk_mthread cs (Some (c, body c)) g) ts))
  (* one statement on the shard *)
  | h_body : forall lks os ts i c cs f g o o' p', nth_error ts i = Some (mk_mthread cs (Some (c, Do f)) g) -> nth_error os (at_ c) = Some o ->
      f o = (o', p') ->
      hstep (mk_hstate lks os ts) (mk_hstate lks (set_nth (at_ c) o' os) (set_nth i (mk_mthread cs (Some (c, p')) g) ts))
  (* ~lock_guard *)
  | h_return : forall lks os ts i c cs r g, nth_error ts i = Some (mk_mthread cs (Some (c, Ret r)) g) ->
      hstep (mk_hstate lks os ts) (mk_hstate (set_nth (at_ c) false lks) os (set_nth i (mk_mthread cs None (g ++ [r])) ts)).
  Inductive hsteps : hstate -> hstate -> Prop :=
  | hs_refl : forall s, hsteps s s
  | hs_step : forall s s1 s2, hsteps s s1 -> hstep s1 s2 -> hsteps s s2.
  Definition h_init (os : list S) (ps : list (list C)) : hstate :=
    mk_hstate (repeat false (length os)) os (map (fun p => mk_mthread p None []) ps).
End Machine.
Arguments mk_hstate {S C R} h_locks h_objs h_threads.
Arguments h_locks {S C R} h.
Arguments h_objs {S C R} h.
Arguments h_threads {S C R} h.
Arguments hstep {S C R} at_ body s1 s2 : rename.
Arguments hsteps {S C R} at_ body s1 s2 : rename.
Arguments h_init {S C R} os ps.

(** The sections of multi_aggregator: push (lines 40-41, 49-50), del (65-66), one shard's part of pushout and force_pushout (75-77, 86-88) and
    of size (98-100). *)
Inductive sec :=
| SPush (e : penv) (n : name) (d : rdata) (h : bool)
| SDel (n : name)
| SPop (force h : bool) (ord : list name -> list name) (i : nat)
| SSize (i : nat).
(** multi_push pushes one by one (53-58); pushout, force_pushout and size go through the shards (73-78, 84-89, 96-101). *)
Definition secs (k : nat) (op : mop) : list sec :=
  match op with
  | MPush e n d h => [SPush e n d h]
  | MMulti ps h => map (fun p => SPush (fst p) (fst (snd p)) (snd (snd p)) h) ps
  | MDel n => [SDel n]
  | MPushout f h ord => map (SPop f h ord) (seq 0 k)
  | MSize => map SSize (seq 0 k)
  end.
(** What a call answers, given what its sections did (57: multi_push answers true; 100: the sizes are added up). *)
Definition answer (op : mop) (rs : list mout) : mout :=
  let recs := flat_map mrecs rs in
  match op with
  | MPush _ _ _ _ | MDel _ => match rs with r :: _ => r | [] => MRecs [] end
  | MMulti _ _ => MAns true recs
  | MPushout _ _ _ => MRecs recs
  | MSize => MSizes (list_sum (map (fun r => match r with MSizes c _ => c | _ => 0 end) rs)) (list_sum (map (fun r => match r with MSizes _ d => d | _ => 0 end) rs))
  end.

Section Sections.
  Variable ne : nat -> list Z -> list Z.
  Variable hash : name -> Z.
  Variable o : maopts.
  (** get_pos_, multi_aggregator.cpp:107-110 *)
  Definition sec_at (s : sec) : nat :=
    match s with SPush _ n _ _ | SDel n => shard_of hash o n | SPop _ _ _ i | SSize i => i end.
  (** What a section does with its shard when run alone. *)
  Definition sec_do (s : sec) (b : bmulti) : outcome (mout * bmulti) :=
    match s with
    | SPush e n d h => '(r, l, b1) <- bm_push ne (ma_agg o) e n d h b ;; Ok (MAns r l, b1)
    | SDel n => let '(r, b1) := bm_del n b in Ok (MAns r [], b1)
    | SPop f h ord _ => '(l, b1) <- bm_pushout ne f h ord b ;; Ok (MRecs l, b1)
    | SSize _ => Ok (MSizes (bm_size b) (bm_data_size b), b)
    end.
  (** The same on a state that may be undefined already. *)
  Definition sec_run (s : sec) (b : outcome bmulti) : outcome mout * outcome bmulti :=
    match b with
    | Ok b => match sec_do s b with Ok (r, b1) => (Ok r, Ok b1) | Ub => (Ub, Ub) | Exn => (Exn, Exn) end
    | Ub => (Ub, Ub)
    | Exn => (Exn, Exn)
    end.
  (** Threads running the calls [ps] on a new multi_aggregator. *)
  Definition h_start (ps : list (list mop)) : hstate (outcome bmulti) sec (outcome mout) :=
    h_init (repeat (Ok []) (ma_hash o)) (map (flat_map (secs (ma_hash o))) ps).
End Sections.

(** The locks alone (ModelLocks, with [LAg i] for the mutex of shard [i]): a section on shard [i] whose handler does [inner]
    (multi_aggregator.cpp:40-41, 76-77; the handlers are called from basic_multi_aggregator.cpp:34, inside the lock). *)
Definition shard_acts (i : nat) (inner : list act) : list act := sect (LAg i) Wr inner.
