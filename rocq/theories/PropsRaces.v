(** C86: no data race and no use of a destroyed aggregator in any program that uses the registry, its aggregators and pushers
    from any number of threads; what is not guarded: the functions given by the user, and std::rand across registries. *)
From Coq Require Import List Bool Arith Lia.
From Verif Require Import ModelLocks ModelRaces RaceProofs.
Import ListNotations.

(** ** An executable schedule, to exhibit reachable states *)
Definition hgood (l : lk) (m : mode) (h : list (lk * mode)) : bool :=
  match m with
  | Rd => if in_dec held_eq_dec (l, Wr) h then false else true
  | Wr => if in_dec held_eq_dec (l, Wr) h then false else if in_dec held_eq_dec (l, Rd) h then false else true
  end.
Definition inb (i : nat) (l : list nat) : bool := if in_dec Nat.eq_dec i l then true else false.
Definition ownedb (i : nat) (slot : list nat) (ts : list rthread) : bool := inb i slot || existsb (fun t => inb i (rt_own t)) ts.
Definition rexec1 (x : nat) (s : rstate) : option rstate :=
  let '(mk_rstate sl md dd ts) := s in
  match nth_error ts x with
  | Some (mk_rthread h o m (a :: p)) =>
    match a with
    | RAcq l k => if hgood l k (rall_held ts) then Some (mk_rstate sl md dd (put x (mk_rthread ((l, k) :: h) o m p) ts)) else None
    | RRel l k => if in_dec held_eq_dec (l, k) h then Some (mk_rstate sl md dd (put x (mk_rthread (remove1 (l, k) h) o m p) ts)) else None
    | RUse y w => Some (mk_rstate sl md dd (put x (mk_rthread h o m p) ts))
    | ROwn i => if inb i sl then Some (mk_rstate sl md dd (put x (mk_rthread h (i :: o) m p) ts)) else None
    | RLock i => if ownedb i sl ts then Some (mk_rstate sl md dd (put x (mk_rthread h (i :: o) m p) ts)) else None
    | RMake i => if inb i md then None else Some (mk_rstate sl (i :: md) dd (put x (mk_rthread h o (i :: m) p) ts))
    | RPublish i => if inb i m then Some (mk_rstate (i :: sl) md dd (put x (mk_rthread h (i :: o) (rem i m) p) ts)) else None
    | RUnslot i => if inb i sl then
        if ownedb i (rem i sl) ts then Some (mk_rstate (rem i sl) md dd (put x (mk_rthread h o m p) ts))
        else Some (mk_rstate (rem i sl) md dd (put x (mk_rthread h o (i :: m) (dtor i ++ p)) ts)) else None
    | RDrop i => if inb i o then
        if ownedb i sl (put x (mk_rthread h (rem i o) m p) ts) then Some (mk_rstate sl md dd (put x (mk_rthread h (rem i o) m p) ts))
        else Some (mk_rstate sl md dd (put x (mk_rthread h (rem i o) (i :: m) (dtor i ++ p)) ts)) else None
    | REnd i => if inb i m then Some (mk_rstate sl md (i :: dd) (put x (mk_rthread h o (rem i m) p) ts)) else None
    end
  | _ => None
  end.
Fixpoint rexec (sch : list nat) (s : rstate) : option rstate :=
  match sch with [] => Some s | x :: sch => match rexec1 x s with Some s' => rexec sch s' | None => None end end.

Lemma inb_in : forall i l, inb i l = true -> In i l.
Proof. intros i l. unfold inb. destruct (in_dec Nat.eq_dec i l); [auto|discriminate]. Qed.
Lemma inb_not : forall i l, inb i l = false -> ~ In i l.
Proof. intros i l. unfold inb. destruct (in_dec Nat.eq_dec i l); [discriminate|auto]. Qed.
Lemma ownedb_ok : forall i sl ts, (ownedb i sl ts = true -> owned i sl ts) /\ (ownedb i sl ts = false -> ~ owned i sl ts).
Proof.
  intros i sl ts. unfold ownedb, owned. split; intros H.
  - apply orb_true_iff in H. destruct H as [H|H]; [left; exact (inb_in _ _ H)|].
    apply existsb_exists in H. destruct H as [t [Ht H]]. right. exists t. split; [exact Ht|exact (inb_in _ _ H)].
  - apply orb_false_iff in H. destruct H as [H1 H2]. intros [Q|[t [Ht Q]]]; [exact (inb_not _ _ H1 Q)|].
    assert (existsb (fun t => inb i (rt_own t)) ts = true); [|congruence]. apply existsb_exists. exists t. split; [exact Ht|].
    unfold inb. destruct (in_dec Nat.eq_dec i (rt_own t)); [reflexivity|contradiction].
Qed.
Lemma hgood_ok : forall l m h, hgood l m h = true -> compatible l m h.
Proof.
  intros l [|] h; unfold hgood, compatible; destruct (in_dec held_eq_dec (l, Wr) h); try discriminate; [auto|].
  destruct (in_dec held_eq_dec (l, Rd) h); [discriminate|auto].
Qed.
Lemma rexec1_step : forall x s s', rexec1 x s = Some s' -> rstep s s'.
Proof.
  intros x [sl md dd ts] s' H. unfold rexec1 in H. destruct (nth_error ts x) as [[h o m [|a p]]|] eqn:Hx; try discriminate.
  destruct a as [l k|l k|y w|i|i|i|i|i|i|i].
  - destruct (hgood l k (rall_held ts)) eqn:E; [|discriminate]. injection H as <-. exact (rs_acq _ _ _ _ _ _ _ _ _ _ _ Hx (hgood_ok _ _ _ E)).
  - destruct (in_dec held_eq_dec (l, k) h) as [E|]; [|discriminate]. injection H as <-. exact (rs_rel _ _ _ _ _ _ _ _ _ _ _ Hx E).
  - injection H as <-. exact (rs_use _ _ _ _ _ _ _ _ _ _ _ Hx).
  - destruct (inb i sl) eqn:E; [|discriminate]. injection H as <-. exact (rs_own _ _ _ _ _ _ _ _ _ _ Hx (inb_in _ _ E)).
  - destruct (ownedb i sl ts) eqn:E; [|discriminate]. injection H as <-. exact (rs_lock _ _ _ _ _ _ _ _ _ _ Hx (proj1 (ownedb_ok _ _ _) E)).
  - destruct (inb i md) eqn:E; [discriminate|]. injection H as <-. exact (rs_make _ _ _ _ _ _ _ _ _ _ Hx (inb_not _ _ E)).
  - destruct (inb i m) eqn:E; [|discriminate]. injection H as <-. exact (rs_publish _ _ _ _ _ _ _ _ _ _ Hx (inb_in _ _ E)).
  - destruct (inb i sl) eqn:E; [|discriminate]. destruct (ownedb i (rem i sl) ts) eqn:F; injection H as <-.
    + exact (rs_unslot _ _ _ _ _ _ _ _ _ _ Hx (inb_in _ _ E) (proj1 (ownedb_ok _ _ _) F)).
    + exact (rs_unslot_last _ _ _ _ _ _ _ _ _ _ Hx (inb_in _ _ E) (proj2 (ownedb_ok _ _ _) F)).
  - destruct (inb i o) eqn:E; [|discriminate]. destruct (ownedb i sl (put x (mk_rthread h (rem i o) m p) ts)) eqn:F; injection H as <-.
    + exact (rs_drop _ _ _ _ _ _ _ _ _ _ Hx (inb_in _ _ E) (proj1 (ownedb_ok _ _ _) F)).
    + exact (rs_drop_last _ _ _ _ _ _ _ _ _ _ Hx (inb_in _ _ E) (proj2 (ownedb_ok _ _ _) F)).
  - destruct (inb i m) eqn:E; [|discriminate]. injection H as <-. exact (rs_end _ _ _ _ _ _ _ _ _ _ Hx (inb_in _ _ E)).
Qed.
Lemma rsteps_trans : forall a b c, rsteps a b -> rsteps b c -> rsteps a c.
Proof. intros a b c H H'; induction H'; [exact H|]. eapply rss_step; [apply IHH'; exact H|assumption]. Qed.
Lemma rexec_steps : forall sch s s', rexec sch s = Some s' -> rsteps s s'.
Proof.
  induction sch as [|x sch IH]; intros s s' H; cbn in H; [injection H as <-; constructor|].
  destruct (rexec1 x s) as [s1|] eqn:E; [|discriminate].
  exact (rsteps_trans _ _ _ (rss_step _ _ _ (rss_refl _) (rexec1_step _ _ _ E)) (IH _ _ H)).
Qed.

Definition only_hand (y : loc) : bool := match y with LcHand => true | _ => false end.
Definition hand_or_rand (y : loc) : bool := match y with LcHand | LcRand => true | _ => false end.

(** ** The registry *)
Theorem C86_no_race : forall progs s y, Forall code progs -> rsteps (rstart progs) s -> y <> LcHand -> ~ race s y.
Proof.
  intros progs s y HP HS Ny.
  apply (inv_race only_hand [] s y); [|destruct y; try reflexivity; congruence].
  exact (inv_steps only_hand [] _ _ HS (inv_rstart only_hand eq_refl [] progs eq_refl HP)).
Qed.
Print Assumptions C86_no_race.

(** Every use of an aggregator is of one that has been made and not destroyed; none is destroyed twice. *)
Theorem C86_alive_when_used : forall progs s a t i w p, Forall code progs -> rsteps (rstart progs) s ->
  nth_error (rs_ts s) a = Some t -> rt_prog t = RUse (LcAgg i) w :: p -> In i (rs_made s) /\ ~ In i (rs_dead s).
Proof.
  intros progs s a t i w p HP HS Ha E.
  exact (inv_alive only_hand [] s a t i w p eq_refl (inv_steps only_hand [] _ _ HS (inv_rstart only_hand eq_refl [] progs eq_refl HP)) Ha E).
Qed.
Print Assumptions C86_alive_when_used.
Theorem C86_destroyed_once : forall progs s, Forall code progs -> rsteps (rstart progs) s -> NoDup (rs_dead s).
Proof.
  intros progs s HP HS. destruct (inv_steps only_hand [] _ _ HS (inv_rstart only_hand eq_refl [] progs eq_refl HP)) as [_ [_ [_ [_ H]]]]. exact H.
Qed.
Print Assumptions C86_destroyed_once.

(** When all threads have ended no lock is held, and every aggregator ever made is in the registry or has been destroyed:
    nothing leaks, and what is in the registry is intact. *)
Theorem C86_nothing_left : forall progs s, Forall code progs -> rsteps (rstart progs) s ->
  (forall a t, nth_error (rs_ts s) a = Some t -> rt_prog t = []) ->
  (forall a t, nth_error (rs_ts s) a = Some t -> rt_held t = [] /\ rt_own t = []) /\
  (forall i, In i (rs_made s) -> In i (rs_slot s) \/ In i (rs_dead s)) /\ (forall i, In i (rs_slot s) -> ~ In i (rs_dead s)).
Proof.
  intros progs s HP HS HE. pose proof (inv_steps only_hand [] _ _ HS (inv_rstart only_hand eq_refl [] progs eq_refl HP)) as HI.
  destruct (inv_ended only_hand [] s HI HE) as [A B]. split; [exact A|split].
  - intros i Hi. destruct (B i Hi) as [Q|[[]|Q]]; [left|right]; exact Q.
  - intros i Hi D. destruct HI as [_ [_ [HM _]]]. destruct (mem_dead _ HM _ D) as [_ [N _]]. exact (N (or_introl Hi)).
Qed.
Print Assumptions C86_nothing_left.

(** ** multi_aggregator *)
Theorem C86_shards_no_race : forall sh progs s y, Forall (shards_ok sh) progs -> rsteps (sstart sh progs) s ->
  y <> LcHand -> y <> LcRand -> ~ race s y.
Proof.
  intros sh progs s y HP HS N1 N2.
  apply (inv_race hand_or_rand sh s y); [|destruct y; try reflexivity; congruence].
  exact (inv_steps hand_or_rand sh _ _ HS (inv_sstart hand_or_rand eq_refl sh sh progs eq_refl eq_refl HP)).
Qed.
Print Assumptions C86_shards_no_race.

(** ** Witnesses *)
(** Thread 0 creates an aggregator and reports through a pusher whose window closes: buffers come and go, the handler asks for
    the name and runs; thread 1 deletes the name meanwhile; thread 2 has begun to report too and waits for
    the mutex.  The reports keep the aggregator alive; thread 2 destroys it when it is done. *)
Definition w_body : list ract := k_pool_look ++ k_pool_change ++ RUse (LcAgg 0) true :: k_name ++ [RUse LcHand true].
Definition w_progs : list (list ract) := [k_new_on 0 [] [] ++ k_push 0 w_body; k_del 0; k_push 0 [RUse (LcAgg 0) true]].
Lemma w_code : Forall code w_progs.
Proof.
  constructor; [|constructor; [|constructor; [|constructor]]].
  - apply code_app; [apply code_new_on; constructor|]. apply code_push. unfold w_body. apply body_look, body_change, body_use.
    apply body_call; [constructor|]. apply body_hand. constructor.
  - constructor.
  - apply code_push, body_use. constructor.
Qed.
Definition w_mid_sched : list nat := repeat 0 19 ++ repeat 1 6 ++ [2] ++ repeat 0 3.
(** In the middle: deleted from the registry, in use, not destroyed; at the end: destroyed, all threads done. *)
Example C86_witness : Forall code w_progs /\
  (exists s t p, rsteps (rstart w_progs) s /\ nth_error (rs_ts s) 0 = Some t /\ rt_prog t = RUse (LcAgg 0) true :: p /\
    rs_slot s = [] /\ rs_made s = [0] /\ rs_dead s = []) /\
  (exists s, rsteps (rstart w_progs) s /\ rs_dead s = [0] /\ rs_slot s = [] /\
    (forall a t, nth_error (rs_ts s) a = Some t -> rt_prog t = [])).
Proof.
  split; [exact w_code|split].
  - destruct (rexec w_mid_sched (rstart w_progs)) as [s|] eqn:E; [|vm_compute in E; discriminate].
    pose proof (rexec_steps _ _ _ E) as H. vm_compute in E. injection E as <-.
    eexists _, _, _. split; [exact H|]. split; [reflexivity|]. split; [reflexivity|]. split; [reflexivity|]. split; reflexivity.
  - destruct (rexec (w_mid_sched ++ repeat 0 7 ++ repeat 2 6) (rstart w_progs)) as [s|] eqn:E; [|vm_compute in E; discriminate].
    pose proof (rexec_steps _ _ _ E) as H. vm_compute in E. injection E as <-.
    eexists. split; [exact H|]. split; [reflexivity|]. split; [reflexivity|].
    intros [|[|[|[|a]]]] t Ha; cbn in Ha; try discriminate; injection Ha as <-; reflexivity.
Qed.

(** The property of C86_no_race is not automatic: without the mutex two reports race for the aggregator. *)
Definition w_bare (i : nat) : list ract := [RLock i; RUse (LcAgg i) true; RDrop i].
Example C86_bare_race : exists s, rsteps (rstart [k_new_on 0 [] [] ++ w_bare 0; w_bare 0]) s /\ race s (LcAgg 0).
Proof.
  destruct (rexec (repeat 0 15 ++ [1]) (rstart [k_new_on 0 [] [] ++ w_bare 0; w_bare 0])) as [s|] eqn:E; [|vm_compute in E; discriminate].
  pose proof (rexec_steps _ _ _ E) as H. vm_compute in E. injection E as <-. eexists. split; [exact H|].
  exists 0, 1. eexists _, _, true, true, _, _. split; [discriminate|]. split; [reflexivity|]. split; [reflexivity|]. repeat split.
Qed.

(** ** What is not guarded *)
(** The function given to set_handler may run in two threads at once: two names, both windows close. *)
Definition h_progs : list (list ract) := [k_new_on 0 [] [] ++ k_push 0 [RUse LcHand true]; k_new_on 1 [] [] ++ k_push 1 [RUse LcHand true]].
Theorem C86_handler_refuted : exists progs s, Forall code progs /\ rsteps (rstart progs) s /\ race s LcHand.
Proof.
  destruct (rexec (repeat 0 16 ++ repeat 1 16) (rstart h_progs)) as [s|] eqn:E; [|vm_compute in E; discriminate].
  pose proof (rexec_steps _ _ _ E) as H. vm_compute in E. injection E as <-. exists h_progs. eexists. split; [|split; [exact H|]].
  - constructor; [|constructor; [|constructor]]; (apply code_app; [apply code_new_on; constructor|apply code_push, body_hand; constructor]).
  - exists 0, 1. eexists _, _, true, true, _, _. split; [discriminate|]. split; [reflexivity|]. split; [reflexivity|]. repeat split.
Qed.
Print Assumptions C86_handler_refuted.

(** Two shards of a multi_aggregator that create aggregators with soiled_start_ts set call std::rand at the same time. *)
Theorem C86_rand_refuted : exists sh progs s, Forall (shards_ok sh) progs /\ rsteps (sstart sh progs) s /\ race s LcRand.
Proof.
  set (progs := [[(0, [RUse LcRand true])]; [(1, [RUse LcRand true])]]).
  destruct (rexec [0; 1] (sstart [0; 1] progs)) as [s|] eqn:E; [|vm_compute in E; discriminate].
  pose proof (rexec_steps _ _ _ E) as H. vm_compute in E. injection E as <-. exists [0; 1], progs. eexists. split; [|split; [exact H|]].
  - constructor; [|constructor; [|constructor]]; (apply shards_cons; [cbn; auto|apply shard_rand; constructor|constructor]).
  - exists 0, 1. eexists _, _, true, true, _, _. split; [discriminate|]. split; [reflexivity|]. split; [reflexivity|]. repeat split.
Qed.
Print Assumptions C86_rand_refuted.

(** The hypotheses of C86_shards_no_race are met by pushes to two shards, one made by the handler of the other. *)
Example C86_shards_witness : Forall (shards_ok [0; 1])
  [[(0, RUse (LcAgg 0) true :: RUse LcHand true :: k_shards [(1, [RUse (LcAgg 1) true])])]; [(1, [RUse LcRand true; RUse (LcAgg 1) true]); (0, [RUse (LcAgg 0) false])]].
Proof.
  constructor; [|constructor; [|constructor]].
  - apply shards_cons; [cbn; auto| |constructor]. apply shard_use, shard_hand. rewrite <- (app_nil_r (k_shards _)). apply shard_call; [|constructor].
    apply shards_cons; [cbn; auto|apply shard_use; constructor|constructor].
  - apply shards_cons; [cbn; auto|apply shard_rand, shard_use; constructor|].
    apply shards_cons; [cbn; auto|apply shard_use; constructor|constructor].
Qed.
