(** Properties C46, C47, C58: the reader-writer lock. *)
From Coq Require Import ZArith List Bool Arith Lia.
From Verif Require Import ModelRegistry ModelRwlock RwlockProofs.
Import ListNotations.
Local Open Scope Z_scope.

(** Scheduling by thread number, for examples *)
Definition run1 (s : state) (x : nat * action) : option state :=
  match nth_error (ts s) (fst x) with
  | None => None
  | Some t => match tstep (sh s) t (snd x) with
              | None => None
              | Some (s', t', n) => Some (mk_state s' (map (wake n) (set_nth (fst x) t' (ts s))))
              end
  end.
Fixpoint run (l : list (nat * action)) (s : state) : option state :=
  match l with [] => Some s | x :: r => match run1 s x with None => None | Some s' => run r s' end end.
Lemma run1_step s x s' : run1 s x = Some s' -> step (snd x) s s'.
Proof.
  unfold run1. destruct x as [i a]. cbn [fst snd]. destruct s as [s l]. cbn [ts sh]. destruct (nth_error l i) as [t|] eqn:E; [|discriminate].
  destruct (tstep s t a) as [[[s1 t1] n]|] eqn:T; [|discriminate]. intros H. injection H as <-.
  apply nth_error_split in E. destruct E as (p & q & -> & <-).
  assert (X : set_nth (length p) t1 (p ++ t :: q) = p ++ t1 :: q) by (induction p; simpl; [reflexivity|now f_equal]). rewrite X.
  constructor. exact T.
Qed.
Lemma run_steps l : forall s s', run l s = Some s' -> steps (map snd l) s s'.
Proof.
  induction l as [|x l IH]; intros s s' H; simpl in H; [injection H as <-; constructor|].
  destruct (run1 s x) as [s1|] eqn:E; [|discriminate]. simpl. econstructor; [apply run1_step; exact E|auto].
Qed.
(** A thread calls a function and runs k statements. *)
Definition does (i : nat) (c : call) (k : nat) : list (nat * action) := (i, Call c) :: repeat (i, Run) k.

(** C46 *)
(** While a lock() has returned and its unlock() has not been called, no other thread holds the lock in any way. *)
Theorem C46_exclusive : forall s i t, reachable s -> nth_error (ts s) i = Some t -> hw t = true ->
  hr t = 0%nat /\ forall j u, j <> i -> nth_error (ts s) j = Some u -> hw u = false /\ hr u = 0%nat.
Proof. exact exclusive. Qed.
Print Assumptions C46_exclusive.

(** No thread runs into one of the five abort(). *)
Theorem C46_never_aborts : forall s t, reachable s -> In t (ts s) -> at_ t <> Dead.
Proof. exact alive. Qed.
Print Assumptions C46_never_aborts.

(** When no thread is inside the lock's functions the counters say who holds it. *)
Theorem C46_counters : forall s, reachable s -> Forall (fun t => at_ t = Idle) (ts s) ->
  rd (sh s) = Z.of_nat (list_sum (map hr (ts s))) /\ wr (sh s) = Z.of_nat (length (filter hw (ts s))) /\ sm (sh s) = false.
Proof.
  intros s R F. apply reach_inv in R. destruct R as [A B C _ _ _ _ _ _].
  assert (X : cnt cr (ts s) = list_sum (map hr (ts s)) /\ cnt cw (ts s) = length (filter hw (ts s)) /\ cnt cm (ts s) = 0%nat).
  { clear -F. induction F as [|t l E F (I1 & I2 & I3)]; [auto|]. rewrite !cnt_cons, I1, I2, I3. unfold cr, cw, cm. rewrite E. simpl.
    destruct (hw t); simpl; split; try lia. }
  destruct X as (X1 & X2 & X3). rewrite X1 in B. rewrite X2 in A. rewrite X3 in C. destruct (sm (sh s)); [discriminate|auto].
Qed.
Print Assumptions C46_counters.

(** Readers do hold the lock together: one twice, one once, while a writer waits. *)
Example C46_readers_witness : exists s, reachable s /\ map hr (ts s) = [2; 1; 0]%nat /\ map at_ (ts s) = [Idle; Idle; LWait].
Proof.
  eexists. split.
  - exists 3%nat. eexists. apply run_steps with (l := does 0 CLockR 5 ++ does 1 CLockR 5 ++ does 2 CLock 2 ++ does 0 CLockR 5). vm_compute. reflexivity.
  - vm_compute. auto.
Qed.
Example C46_witness : exists s, reachable s /\ map hw (ts s) = [false; true; false]%nat /\ map at_ (ts s) = [RWait; Idle; LWait].
Proof.
  eexists. split.
  - exists 3%nat. eexists. apply run_steps with (l := does 1 CLock 6 ++ does 0 CLockR 2 ++ does 2 CLock 2). vm_compute. reflexivity.
  - vm_compute. auto.
Qed.

(** C47 *)
(** Outside the inner mutex, nobody sleeps on a lock that is free for them. *)
Theorem C47_no_lost_wakeup : forall s, reachable s -> sm (sh s) = false ->
  (wr (sh s) = 0 -> rd (sh s) = 0 -> Forall (fun t => at_ t <> LWait) (ts s)) /\
  (wr (sh s) = 0 -> Forall (fun t => at_ t <> RWait) (ts s)).
Proof. exact no_lost_wakeup. Qed.
Print Assumptions C47_no_lost_wakeup.

(** If the lock's code cannot take a step, every thread is outside or waiting, and if one is waiting then some caller outside
    the lock's functions holds the lock. *)
Theorem C47_progress : forall s, reachable s -> (forall s', ~ step Run s s') ->
  Forall (fun t => at_ t = Idle \/ at_ t = LWait \/ at_ t = RWait) (ts s) /\
  (Exists (fun t => at_ t <> Idle) (ts s) -> Exists (fun t => at_ t = Idle /\ (hw t = true \/ (0 < hr t)%nat)) (ts s)).
Proof. exact quiet_holder. Qed.
Print Assumptions C47_progress.

(** Without further calls and spurious wakeups the lock's code comes to rest, whatever the schedule, after a bounded number
    of steps: with n threads at most n * (14 n + 7). *)
Theorem C47_terminates : forall s l s', Forall (fun a => a = Run) l -> steps l s s' ->
  (length l <= length (ts s) * (14 * length (ts s) + 7))%nat.
Proof.
  intros s l s' F S. pose proof (runs_bounded l s s' S F) as B.
  assert (M : forall n r, (cnt (weight n) r <= length r * (14 * n + 7))%nat).
  { intros n. induction r as [|t r IH]; [reflexivity|]. rewrite cnt_cons. cbn [length].
    assert (W : (weight n t <= 14 * n + 7)%nat) by (destruct t as [[] ? ?]; cbn; lia). lia. }
  specialize (M (length (ts s)) (ts s)). unfold measure in B at 2. lia.
Qed.
Print Assumptions C47_terminates.
Theorem C47_settles : forall s, exists l s', Forall (fun a => a = Run) l /\ steps l s s' /\ forall s'', ~ step Run s' s''.
Proof. exact settles. Qed.
Print Assumptions C47_settles.

(** A thread that holds a read lock never waits in lock_r(). *)
Theorem C47_nested_read : forall s t, reachable s -> In t (ts s) -> (0 < hr t)%nat -> at_ t <> RWait /\ wr (sh s) = 0.
Proof. exact nested. Qed.
Print Assumptions C47_nested_read.

(** Two writers and a reader queue behind a writer; after its unlock() one of them holds the lock and nobody is lost. *)
Example C47_witness : exists s s', reachable s /\ map at_ (ts s) = [Idle; LWait; LWait; RWait] /\ map hw (ts s) = [true; false; false; false] /\
  steps (map snd (does 0 CUnlock 6 ++ repeat (2%nat, Run) 6)) s s' /\
  map at_ (ts s') = [Idle; LAcq; Idle; RAcq] /\ map hw (ts s') = [false; false; true; false].
Proof.
  eexists. eexists. split.
  - exists 4%nat. eexists. apply run_steps with (l := does 0 CLock 6 ++ does 1 CLock 2 ++ does 2 CLock 2 ++ does 3 CLockR 2). vm_compute. reflexivity.
  - split; [reflexivity|]. split; [reflexivity|]. split; [apply run_steps; vm_compute; reflexivity|]. vm_compute. auto.
Qed.

(** C58 *)
(** A waiting writer is not always served: two readers that overlap can go on for ever.  The execution comes back to the
    state it started from; each reader has taken and released the lock once, and the writer has slept all the time. *)
Definition overlap : list (nat * action) := does 1 CLockR 5 ++ does 0 CUnlockR 5 ++ does 0 CLockR 5 ++ does 1 CUnlockR 5.
Theorem C58_starvation_refuted : exists s, reachable s /\ map at_ (ts s) = [Idle; Idle; LWait] /\
  steps (map snd overlap) s s /\
  forall k, exists s', run (firstn k overlap) s = Some s' /\ option_map at_ (nth_error (ts s') 2) = Some LWait.
Proof.
  eexists. split.
  - exists 3%nat. eexists. apply run_steps with (l := does 0 CLockR 5 ++ does 2 CLock 2). vm_compute. reflexivity.
  - split; [reflexivity|]. split; [apply run_steps; vm_compute; reflexivity|].
    intros k. do 25 (destruct k as [|k]; [eexists; split; vm_compute; reflexivity|]).
    rewrite firstn_all2 by (change (length overlap) with 24%nat; lia). eexists. split; vm_compute; reflexivity.
Qed.
Print Assumptions C58_starvation_refuted.

(** Once the readers stop, the writer is woken: the last unlock_r() notifies it. *)
Theorem C58_last_reader_wakes_partial : forall s, reachable s -> Forall (fun t => hw t = false /\ hr t = 0%nat) (ts s) ->
  (forall s', ~ step Run s s') -> Forall (fun t => at_ t = Idle) (ts s).
Proof.
  intros s R F Q. destruct (quiet_holder s R Q) as [A B].
  assert (D : Forall (fun t => at_ t = Idle) (ts s) \/ Exists (fun t => at_ t <> Idle) (ts s)).
  { clear -A. induction A as [|t l X A [IH|IH]]; [auto| |right; now apply Exists_cons_tl].
    destruct X as [X|[X|X]]; [left; now constructor| |]; right; apply Exists_cons_hd; congruence. }
  destruct D as [D|D]; [exact D|]. apply B in D. apply Exists_exists in D. destruct D as (t & Ht & _ & X).
  rewrite Forall_forall in F. specialize (F t Ht). destruct F as [F1 F2], X as [X|X]; [congruence|lia].
Qed.
Print Assumptions C58_last_reader_wakes_partial.

Lemma no_step s : forallb (fun t => match tstep (sh s) t Run with None => true | _ => false end) (ts s) = true -> forall s', ~ step Run s s'.
Proof.
  intros Q s' H. remember Run as a eqn:Ea. destruct H as [s0 l t r a s1 t' n T]. subst a. cbn [sh ts] in Q.
  rewrite forallb_app in Q. cbn [forallb] in Q. rewrite T in Q. rewrite andb_false_r in Q. discriminate.
Qed.
(** The writer of the starvation above: when the reader has left it gets the lock, and once it has left everybody is outside. *)
Example C58_witness : exists s s1 s2, reachable s /\ map at_ (ts s) = [Idle; LWait] /\
  steps (map snd (does 0 CUnlockR 6 ++ repeat (1%nat, Run) 6)) s s1 /\ map at_ (ts s1) = [Idle; Idle] /\ map hw (ts s1) = [false; true] /\
  steps (map snd (does 1 CUnlock 6)) s1 s2 /\ reachable s2 /\ Forall (fun t => hw t = false /\ hr t = 0%nat) (ts s2) /\
  forall s', ~ step Run s2 s'.
Proof.
  eexists _, _, _. split; [exists 2%nat; eexists; apply run_steps with (l := does 0 CLockR 5 ++ does 1 CLock 2); vm_compute; reflexivity|].
  split; [reflexivity|]. split; [apply run_steps; vm_compute; reflexivity|]. split; [reflexivity|]. split; [reflexivity|].
  split; [apply run_steps; vm_compute; reflexivity|].
  split; [exists 2%nat; eexists; apply run_steps with (l := does 0 CLockR 5 ++ does 1 CLock 2 ++ does 0 CUnlockR 6 ++ repeat (1%nat, Run) 6 ++ does 1 CUnlock 6); vm_compute; reflexivity|].
  split; [vm_compute; repeat constructor|].
  apply no_step. vm_compute. reflexivity.
Qed.
