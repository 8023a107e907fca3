(** Properties C50 and C59: deadlocks. *)
From Coq Require Import List Bool Arith Lia.
From Verif Require Import ModelLocks.
Import ListNotations.

Definition done (t : lthread) : Prop := l_prog t = [].
(** Nobody can go on although somebody is not done *)
Definition deadlock (ts : list lthread) : Prop := ~ Forall done ts /\ forall ts', ~ lstep ts ts'.
Definition is_enable (c : call) : bool := match c with KEnable _ => true | _ => false end.
(** A push that hands a finished window to the wrtstat handler *)
Definition is_delivery (c : call) : bool :=
  match c with KPush _ ps => existsb (fun p => match p with PName => true | _ => false end) ps | _ => false end.
Definition calls (progs : list (list call)) : list call := concat progs.

(* ---- proof ---- *)
Definition is_ag (x : lk * mode) : bool := match fst x with LAg _ => true | _ => false end.
Definition is_pool (x : lk * mode) : bool := match fst x with LPool => true | _ => false end.
Definition is_rw (x : lk * mode) : bool := match x with (LReg, Wr) => true | _ => false end.
(** which locks may be taken while holding [h]; [e]: with enable(), without deliveries *)
Definition allowed (e : bool) (h : list (lk * mode)) (l : lk) (m : mode) : Prop :=
  existsb is_pool h = false /\
  match l, m with
  | LPool, _ => True
  | LReg, Rd => existsb is_rw h = false /\ (e = true -> existsb is_ag h = false)
  | LReg, Wr => h = []
  | LAg _, _ => existsb is_ag h = false /\ (e = false -> existsb is_rw h = false)
  end.
Fixpoint wf (e : bool) (h : list (lk * mode)) (p : list act) : Prop :=
  match p with
  | [] => h = []
  | Acq l m :: p => allowed e h l m /\ wf e ((l, m) :: h) p
  | Rel l m :: p => match h with [] => False | x :: h => x = (l, m) /\ wf e h p end
  end.
Definition twf (e : bool) (t : lthread) : Prop := wf e (l_held t) (l_prog t).

Lemma remove1_head x h : remove1 x (x :: h) = h.
Proof. simpl. destruct (held_eq_dec x x); congruence. Qed.

Lemma lstep_wf e ts ts' : Forall (twf e) ts -> lstep ts ts' -> Forall (twf e) ts'.
Proof.
  intros H S. destruct S as [a h l m p b C|a h l m p b I]; apply Forall_app in H; destruct H as [Ha Hb]; inversion Hb as [|? ? Ht Hr]; subst; apply Forall_app; split; auto; constructor; auto.
  - apply Ht.
  - unfold twf in *. cbn in *. destruct h as [|x h]; [contradiction|]. destruct Ht as [-> Ht]. rewrite remove1_head. exact Ht.
Qed.

Lemma all_held_in ts x : In x (all_held ts) <-> exists t, In t ts /\ In x (l_held t).
Proof. unfold all_held. rewrite in_flat_map. reflexivity. Qed.
Lemma none f (h : list (lk * mode)) x : existsb f h = false -> In x h -> f x = false.
Proof. intros H I. destruct (f x) eqn:E; [|reflexivity]. rewrite <- H. symmetry. apply existsb_exists. eauto. Qed.

(** the thread can go on *)
Lemma go e ts t : Forall (twf e) ts -> In t ts ->
  match l_prog t with [] => False | Rel _ _ :: _ => True | Acq l m :: _ => compatible l m (all_held ts) end -> exists ts', lstep ts ts'.
Proof.
  intros W I H. pose proof (proj1 (Forall_forall _ _) W t I) as Wt. destruct (in_split _ _ I) as (a & b & ->). destruct t as [h [|[l m|l m] p]]; cbn in H; [contradiction| |].
  - eexists. apply ls_acq. exact H.
  - eexists. apply ls_rel. unfold twf in Wt. cbn in Wt. destruct h as [|x h]; [contradiction|]. destruct Wt as [-> _]. left. reflexivity.
Qed.

Lemma holder e ts f : Forall (twf e) ts -> existsb f (all_held ts) = true ->
  exists t, In t ts /\ existsb f (l_held t) = true /\
  match l_prog t with [] => False | Rel _ _ :: _ => True | Acq l m :: _ => allowed e (l_held t) l m end.
Proof.
  intros W H. apply existsb_exists in H. destruct H as (x & I & Fx). apply all_held_in in I. destruct I as (t & I & Ix).
  exists t. split; [exact I|]. split; [apply existsb_exists; eauto|]. pose proof (proj1 (Forall_forall _ _) W t I) as Wt. unfold twf in Wt.
  destruct (l_prog t) as [|[l m|l m] p]; [rewrite Wt in Ix; contradiction|apply Wt|exact Logic.I].
Qed.

Lemma progress e ts : Forall (twf e) ts -> ~ Forall done ts -> exists ts', lstep ts ts'.
Proof.
  intros W N.
  destruct (existsb is_pool (all_held ts)) eqn:P.
  { destruct (holder e ts is_pool W P) as (t & I & F & H). apply (go e ts t W I). destruct (l_prog t) as [|[l m|l m] p]; [contradiction| |exact Logic.I].
    destruct H as [H _]. congruence. }
  assert (GP : forall m, compatible LPool m (all_held ts)).
  { assert (X : forall m, ~ In (LPool, m) (all_held ts)) by (intros m I; apply (none _ _ _ P) in I; discriminate). intros []; cbn; auto. }
  assert (AG : (existsb is_rw (all_held ts) = false \/ e = true) -> existsb is_ag (all_held ts) = true -> exists ts', lstep ts ts').
  { intros R A. destruct (holder e ts is_ag W A) as (t & I & F & H). apply (go e ts t W I). destruct (l_prog t) as [|[[| |i] m|l m] p]; [contradiction| |apply GP| |exact Logic.I].
    - destruct m.
      + destruct H as (_ & _ & H). destruct e; [rewrite H in F; [discriminate|reflexivity]|]. destruct R as [R|R]; [|discriminate]. cbn. intros X. apply (none _ _ _ R) in X. discriminate.
      + destruct H as (_ & H). rewrite H in F. discriminate.
    - destruct H as (_ & H & _). congruence. }
  assert (RW : (existsb is_ag (all_held ts) = false \/ e = false) -> existsb is_rw (all_held ts) = true -> exists ts', lstep ts ts').
  { intros A R. destruct (holder e ts is_rw W R) as (t & I & F & H). apply (go e ts t W I). destruct (l_prog t) as [|[[| |i] m|l m] p]; [contradiction| |apply GP| |exact Logic.I].
    - destruct m; [destruct H as (_ & H & _); congruence|]. destruct H as (_ & H). rewrite H in F. discriminate.
    - destruct H as (_ & H & E). destruct e; [|rewrite E in F; [discriminate|reflexivity]]. destruct A as [A|A]; [|discriminate].
      assert (X : forall k, ~ In (LAg i, k) (all_held ts)) by (intros k X; apply (none _ _ _ A) in X; discriminate). destruct m; cbn; auto. }
  destruct (existsb is_ag (all_held ts)) eqn:A.
  { destruct (existsb is_rw (all_held ts)) eqn:R; [|now apply AG; [left|]]. destruct e; [apply AG; auto|apply RW; auto]. }
  destruct (existsb is_rw (all_held ts)) eqn:R; [apply RW; auto|]. clear AG RW.
  (* nobody holds anything but reads of the registry *)
  assert (Ex : exists t, In t ts /\ ~ done t).
  { clear - N. induction ts as [|t ts IH]; [contradiction N; constructor|]. unfold done at 1 in N. destruct (l_prog t) eqn:E.
    - destruct IH as (u & I & D); [intros X; apply N; constructor; assumption|]. exists u. split; [right; exact I|exact D].
    - exists t. split; [left; reflexivity|]. unfold done. rewrite E. discriminate. }
  destruct Ex as (t & I & D). unfold done in D.
  (* somebody who is not at the write lock can go on *)
  assert (Q : forall u, In u ts -> match l_prog u with [] => False | Acq LReg Wr :: _ => False | _ => True end -> exists ts', lstep ts ts').
  { intros u Iu Hu. apply (go e ts u W Iu). destruct (l_prog u) as [|[[| |i] m|l m] p]; [contradiction| |apply GP| |exact Logic.I].
    - destruct m; [|contradiction]. cbn. intros X. apply (none _ _ _ R) in X. discriminate.
    - assert (X : forall k, ~ In (LAg i, k) (all_held ts)) by (intros k X; apply (none _ _ _ A) in X; discriminate). destruct m; cbn; auto. }
  destruct (existsb (fun x => match x with (LReg, Rd) => true | _ => false end) (all_held ts)) eqn:RR.
  { destruct (holder e ts _ W RR) as (u & Iu & Fu & Hu). apply (Q u Iu). destruct (l_prog u) as [|[[| |i] [] |l m] p]; try exact Logic.I; try contradiction.
    destruct Hu as (_ & Hu). rewrite Hu in Fu. discriminate. }
  apply (go e ts t W I). destruct (l_prog t) as [|[[| |i] m|l m] p]; [congruence| |apply GP| |exact Logic.I].
  - assert (X : ~ In (LReg, Wr) (all_held ts)) by (intros X; apply (none _ _ _ R) in X; discriminate).
    assert (Y : ~ In (LReg, Rd) (all_held ts)) by (intros Y; apply (none _ _ _ RR) in Y; discriminate). destruct m; cbn; auto.
  - assert (X : forall k, ~ In (LAg i, k) (all_held ts)) by (intros k X; apply (none _ _ _ A) in X; discriminate). destruct m; cbn; auto.
Qed.

(** The programs are well formed *)
Lemma wf_sect e h l m body q : allowed e h l m -> (forall q, wf e ((l, m) :: h) q -> wf e ((l, m) :: h) (body ++ q)) -> wf e h q -> wf e h (sect l m body ++ q).
Proof. intros A B H. unfold sect. cbn. split; [exact A|]. rewrite <- app_assoc. apply B. cbn. auto. Qed.
Lemma wf_flat {A} e h (f : A -> list act) l q : (forall x q, In x l -> wf e h q -> wf e h (f x ++ q)) -> wf e h q -> wf e h (flat_map f l ++ q).
Proof. intros F H. induction l as [|x l IH]; cbn; [exact H|]. rewrite <- app_assoc. apply F; [left; reflexivity|]. apply IH. intros y r I. apply F. right. exact I. Qed.
Ltac al := unfold allowed; cbn; repeat match goal with |- _ /\ _ => split end; auto; try discriminate.
Lemma wf_pool e h ps q : existsb is_pool h = false -> wf e h q -> wf e h (pool_acts ps ++ q).
Proof. intros P H. apply wf_flat; [|exact H]. intros x r _ Hr. apply wf_sect; [al|auto|exact Hr]. Qed.

Lemma wf_call (e : bool) c q : (if e then is_delivery c else is_enable c) = false -> wf e [] q -> wf e [] (call_acts c ++ q).
Proof.
  intros C H. destruct c; cbn [call_acts].
  - apply wf_sect; [al|auto|exact H].
  - apply wf_sect; [al| |exact H]. intros r Hr. now apply wf_pool.
  - apply wf_sect; [al| |exact H]. intros r Hr. now apply wf_pool.
  - apply wf_sect; [al| |exact H]. intros r Hr. apply wf_flat; [|exact Hr]. intros [m|] r' Ip Hr'; cbn [part_acts].
    + apply wf_sect; [al|auto|exact Hr'].
    + apply wf_sect; [|auto|exact Hr']. al. intros ->. exfalso. cbn in C.
      assert (X : existsb (fun p => match p with PName => true | PPool _ => false end) ps = true) by (apply existsb_exists; exists PName; auto).
      assert (Y : existsb (fun p => match p with PPool _ => false | PName => true end) ps = true) by exact X. congruence.
  - rewrite <- app_assoc. apply wf_sect; [al|auto|]. apply wf_sect; [al| |exact H]. intros r Hr. now apply wf_pool.
  - apply wf_sect; [al| |exact H]. intros r Hr. apply wf_flat; [|exact Hr]. intros [i [p1 p2]] r' _ Hr'. cbn [fst snd]. rewrite <- !app_assoc.
    apply wf_sect; [al|auto|]. apply wf_sect; [al|intros z Hz; now apply wf_pool|]. apply wf_sect; [al|intros z Hz; now apply wf_pool|exact Hr'].
  - destruct e; [|discriminate]. apply wf_sect; [al| |exact H]. intros r Hr. apply wf_flat; [|exact Hr]. intros i r' _ Hr'.
    apply wf_sect; [al|auto|exact Hr'].
Qed.

Lemma start_wf (e : bool) progs : (forall c, In c (calls progs) -> (if e then is_delivery c else is_enable c) = false) -> Forall (twf e) (start progs).
Proof.
  intros C. apply Forall_forall. intros t I. unfold start in I. apply in_map_iff in I. destruct I as (p & <- & I). unfold twf. cbn.
  rewrite <- (app_nil_r (flat_map call_acts p)). apply wf_flat; [|reflexivity]. intros c q Ic Hq. apply wf_call; [|exact Hq]. apply C. unfold calls. apply in_concat. eauto.
Qed.
Lemma lsteps_wf e s s' : Forall (twf e) s -> lsteps s s' -> Forall (twf e) s'.
Proof. intros W S. induction S; [exact W|]. eapply lstep_wf; [|eassumption]. auto. Qed.

(** Any number of threads making any calls: never a deadlock, provided enable() is not called, or no push delivers windows
    through the wrtstat handler. *)
Theorem C50_no_deadlock_partial : forall progs s,
  (forall c, In c (calls progs) -> is_enable c = false) \/ (forall c, In c (calls progs) -> is_delivery c = false) ->
  lsteps (start progs) s -> ~ deadlock s.
Proof.
  intros progs s [C|C] S [N D].
  - destruct (progress false s (lsteps_wf _ _ _ (start_wf false progs C) S) N) as [s' H]. exact (D s' H).
  - destruct (progress true s (lsteps_wf _ _ _ (start_wf true progs C) S) N) as [s' H]. exact (D s' H).
Qed.
Print Assumptions C50_no_deadlock_partial.

Inductive lrun : nat -> list lthread -> list lthread -> Prop :=
| lr_0 : forall s, lrun 0 s s
| lr_S : forall n s1 s2 s3, lrun n s1 s2 -> lstep s2 s3 -> lrun (S n) s1 s3.
Definition todo (s : list lthread) : nat := list_sum (map (fun t => length (l_prog t)) s).
Lemma lstep_todo s s' : lstep s s' -> todo s = S (todo s').
Proof. intros []; unfold todo; rewrite !map_app, !list_sum_app; cbn; lia. Qed.
Lemma lrun_todo n s s' : lrun n s s' -> todo s = (n + todo s')%nat.
Proof. intros H. induction H; [reflexivity|]. apply lstep_todo in H0. lia. Qed.
Lemma lrun_steps n s s' : lrun n s s' -> lsteps s s'.
Proof. intros H. induction H; [constructor|econstructor; eassumption]. Qed.
Lemma todo_0 s : todo s = 0%nat -> Forall done s.
Proof. induction s as [|t s IH]; intros H; [constructor|]. change (todo (t :: s)) with (length (l_prog t) + todo s)%nat in H. constructor; [|apply IH; lia]. unfold done. destruct (l_prog t); [reflexivity|discriminate]. Qed.

(** Then every call returns: an execution, whatever the schedule, has a fixed length at most, and one that cannot go on has
    finished everything. *)
Theorem C50_all_return : forall progs n s,
  (forall c, In c (calls progs) -> is_enable c = false) \/ (forall c, In c (calls progs) -> is_delivery c = false) ->
  lrun n (start progs) s ->
  (n <= length (flat_map call_acts (calls progs)))%nat /\ ((forall s', ~ lstep s s') -> Forall done s /\ n = length (flat_map call_acts (calls progs))).
Proof.
  intros progs n s C R.
  assert (L : todo (start progs) = length (flat_map call_acts (calls progs))).
  { clear. unfold start, todo, calls. rewrite map_map. cbn. induction progs as [|p ps IH]; [reflexivity|]. cbn [concat]. rewrite flat_map_app, app_length, <- IH. reflexivity. }
  pose proof (lrun_todo _ _ _ R) as T. rewrite L in T. split; [lia|]. intros St.
  assert (Z0 : todo s = 0%nat).
  { destruct (todo s) eqn:E; [reflexivity|]. exfalso. apply (C50_no_deadlock_partial progs s C (lrun_steps _ _ _ R)). split; [|exact St].
    intros A. assert (X : todo s = 0%nat) by (clear - A; induction A as [|t s D A IH]; [reflexivity|]; unfold todo in *; cbn; unfold done in D; rewrite D; cbn; exact IH). congruence. }
  split; [apply todo_0; exact Z0|lia].
Qed.
Print Assumptions C50_all_return.

(** Running a schedule, to exhibit executions *)
Fixpoint l_exec (l : list nat) (s : list lthread) : option (list lthread) :=
  match l with
  | [] => Some s
  | i :: r =>
      match nth_error s i with
      | Some (mk_lthread h (Acq x m :: p)) =>
          if match m with
             | Rd => if in_dec held_eq_dec (x, Wr) (all_held s) then false else true
             | Wr => if in_dec held_eq_dec (x, Wr) (all_held s) then false else if in_dec held_eq_dec (x, Rd) (all_held s) then false else true
             end
          then l_exec r (firstn i s ++ mk_lthread ((x, m) :: h) p :: skipn (S i) s) else None
      | Some (mk_lthread h (Rel x m :: p)) =>
          if in_dec held_eq_dec (x, m) h then l_exec r (firstn i s ++ mk_lthread (remove1 (x, m) h) p :: skipn (S i) s) else None
      | _ => None
      end
  end.
Lemma lsteps_trans s1 s2 s3 : lsteps s1 s2 -> lsteps s2 s3 -> lsteps s1 s3.
Proof. intros A B. induction B; [exact A|]. econstructor; [|eassumption]. auto. Qed.
Lemma l_exec_steps l : forall s s', l_exec l s = Some s' -> lsteps s s'.
Proof.
  induction l as [|i l IH]; intros s s' H; cbn [l_exec] in H; [injection H as <-; constructor|].
  destruct (nth_error s i) as [t|] eqn:N; [|discriminate]. apply nth_error_split in N. destruct N as (a & b & -> & <-).
  rewrite firstn_app, firstn_all, Nat.sub_diag, app_nil_r in H. rewrite skipn_app, skipn_all2, app_nil_l in H by lia.
  replace (S (length a) - length a)%nat with 1%nat in H by lia. cbn [skipn] in H. destruct t as [h [|[x m|x m] p]]; [discriminate| |].
  - destruct m.
    + destruct (in_dec held_eq_dec (x, Wr) _) as [|N]; [discriminate|]. eapply lsteps_trans; [eapply lss_step; [constructor|]|exact (IH _ _ H)]. apply ls_acq. exact N.
    + destruct (in_dec held_eq_dec (x, Wr) _) as [|N]; [discriminate|]. destruct (in_dec held_eq_dec (x, Rd) _) as [|N2]; [discriminate|].
      eapply lsteps_trans; [eapply lss_step; [constructor|]|exact (IH _ _ H)]. apply ls_acq. split; assumption.
  - destruct (in_dec held_eq_dec (x, m) h) as [I|]; [|discriminate]. eapply lsteps_trans; [eapply lss_step; [constructor|]|exact (IH _ _ H)]. apply ls_rel. exact I.
Qed.
(** everybody waits *)
Definition blocked (s : list lthread) (t : lthread) : bool :=
  match l_prog t with
  | [] => true
  | Acq x Rd :: _ => if in_dec held_eq_dec (x, Wr) (all_held s) then true else false
  | Acq x Wr :: _ => if in_dec held_eq_dec (x, Wr) (all_held s) then true else if in_dec held_eq_dec (x, Rd) (all_held s) then true else false
  | Rel _ _ :: _ => false
  end.
Lemma blocked_stuck s : forallb (blocked s) s = true -> existsb (fun t => match l_prog t with [] => false | _ => true end) s = true -> deadlock s.
Proof.
  intros B E. split.
  - intros D. apply existsb_exists in E. destruct E as (t & I & H). rewrite Forall_forall in D. rewrite (D t I) in H. discriminate.
  - intros s' St. destruct St as [a h l m p b C|a h l m p b C]; rewrite forallb_forall in B; specialize (B _ (in_elt _ a b)); unfold blocked in B; cbn [l_prog] in B; [|discriminate].
    destruct m; cbn in C; [destruct (in_dec held_eq_dec (l, Wr) _); [contradiction|discriminate]|]. destruct C as [C1 C2].
    destruct (in_dec held_eq_dec (l, Wr) _); [contradiction|]. destruct (in_dec held_eq_dec (l, Rd) _); [contradiction|discriminate].
Qed.

(** A push that delivers a window, and enable(), in two threads: both wait for ever. *)
Theorem C50_deadlock_refuted : exists s, lsteps (start [[KPush 0 [PName]]; [KEnable [0]]]) s /\ deadlock s.
Proof.
  eexists. split; [eapply (l_exec_steps [0; 1]%nat); vm_compute; reflexivity|]. apply blocked_stuck; vm_compute; reflexivity.
Qed.
Print Assumptions C50_deadlock_refuted.

(** A non-trivial instance of the hypotheses: three threads, deliveries, pop_all, creation, deletion. *)
Definition c50_progs : list (list call) :=
  [[KPush 0 [PPool Rd; PName; PPool Wr; PName]; KWrite [Rd]; KById 1 []]; [KPopAll [(0, ([Rd; Wr], [])); (1, ([], [Rd]))]%nat; KRead]; [KPush 1 [PName]; KWrite []; KAg 0 [Wr]]].
Example C50_witness : (forall c, In c (calls c50_progs) -> is_enable c = false) /\
  exists s, lsteps (start c50_progs) s /\ ~ Forall done s /\ In (LReg, Rd) (all_held s) /\ In (LAg 0, Wr) (all_held s) /\ In (LAg 1, Wr) (all_held s).
Proof.
  split; [intros c I; repeat (destruct I as [<-|I]; [reflexivity|]); contradiction|].
  eexists. split; [eapply (l_exec_steps [0; 1; 2; 0; 0; 1; 1; 2]%nat); vm_compute; reflexivity|]. split; [|cbn; auto 10].
  intros D. inversion D as [|? ? X]; subst. unfold done in X. discriminate.
Qed.

(** C59: callbacks that use the library. *)
(** A handler that uses its own aggregator waits for itself; ... *)
Theorem C59_same_aggregator_refuted : forall i ps, exists s, lsteps [mk_lthread [] (callback_acts i [KAg i ps])] s /\ deadlock s.
Proof.
  intros i ps. exists [mk_lthread [(LAg i, Wr)] (tl (callback_acts i [KAg i ps]))]. split.
  - eapply lss_step; [constructor|]. apply (ls_acq [] [] (LAg i) Wr _ []). cbn. tauto.
  - apply blocked_stuck; [|reflexivity]. cbn [forallb andb]. unfold blocked. cbn [callback_acts sect flat_map call_acts app tl l_prog].
    destruct (in_dec held_eq_dec _ _) as [|n]; [reflexivity|]. exfalso. apply n. left. reflexivity.
Qed.
Print Assumptions C59_same_aggregator_refuted.
(** ... one that creates or deletes an aggregator can block with pop_all(); ... *)
Theorem C59_create_refuted : exists s, lsteps [mk_lthread [] (callback_acts 0 [KWrite []]); mk_lthread [] (call_acts (KPopAll [(0, ([], []))]))]%nat s /\ deadlock s.
Proof. eexists. split; [eapply (l_exec_steps [0; 1; 1; 1]%nat); vm_compute; reflexivity|]. apply blocked_stuck; vm_compute; reflexivity. Qed.
Print Assumptions C59_create_refuted.
(** ... two that use each other's aggregator block each other; ... *)
Theorem C59_crossed_refuted : exists s, lsteps [mk_lthread [] (callback_acts 0 [KAg 1 []]); mk_lthread [] (callback_acts 1 [KAg 0 []])]%nat s /\ deadlock s.
Proof. eexists. split; [eapply (l_exec_steps [0; 1]%nat); vm_compute; reflexivity|]. apply blocked_stuck; vm_compute; reflexivity. Qed.
Print Assumptions C59_crossed_refuted.
(** ... an initializer must not even ask for a name. *)
Theorem C59_initializer_refuted : exists s, lsteps [mk_lthread [] (initializer_acts [KRead])] s /\ deadlock s.
Proof. eexists. split; [eapply (l_exec_steps [0]%nat); vm_compute; reflexivity|]. apply blocked_stuck; vm_compute; reflexivity. Qed.
Print Assumptions C59_initializer_refuted.

(** What is safe (if nobody calls enable()): handlers that only ask the registry for names or counts, any number of times, in any number of
    threads.  An [inr (i, n)] is a push to aggregator [i] whose handler makes [n] such calls. *)
Definition read_handler_acts (x : call + nat * nat) : list act :=
  match x with inl c => call_acts c | inr (i, n) => callback_acts i (repeat KRead n) end.
Theorem C59_reading_handlers_partial : forall (progs : list (list (call + nat * nat))) s,
  (forall p c, In p progs -> In (inl c) p -> forall l, c <> KEnable l) ->
  lsteps (map (fun p => mk_lthread [] (flat_map read_handler_acts p)) progs) s -> ~ deadlock s.
Proof.
  intros progs s E S.
  set (tr := fun x : call + nat * nat => match x with inl c => c | inr (i, n) => KPush i (repeat PName n) end).
  assert (T : forall x, read_handler_acts x = call_acts (tr x)).
  { intros [c|[i n]]; [reflexivity|]. cbn [read_handler_acts tr call_acts callback_acts]. unfold callback_acts. f_equal. unfold parts_acts.
    induction n as [|n IH]; [reflexivity|]. cbn [repeat flat_map]. rewrite IH. reflexivity. }
  assert (P : map (fun p => mk_lthread [] (flat_map read_handler_acts p)) progs = start (map (map tr) progs)).
  { unfold start. rewrite map_map. apply map_ext. intros p. f_equal. induction p as [|x p IH]; [reflexivity|]. cbn [flat_map map]. rewrite T, IH. reflexivity. }
  rewrite P in S. refine (C50_no_deadlock_partial _ _ _ S). left. intros c I. unfold calls in I. apply in_concat in I. destruct I as (q & Iq & Ic).
  apply in_map_iff in Iq. destruct Iq as (p & <- & Ip). apply in_map_iff in Ic. destruct Ic as ([c'|[i n]] & <- & Ix); [|reflexivity].
  specialize (E p c' Ip Ix). destruct c'; try reflexivity. exfalso. eapply E. reflexivity.
Qed.
Print Assumptions C59_reading_handlers_partial.
Example C59_witness : exists s, lsteps (map (fun p => mk_lthread [] (flat_map read_handler_acts p)) [[inr (0, 2)]; [inl (KPopAll [(0, ([], []))])]; [inl (KWrite [])]]%nat) s /\
  In (LAg 0, Wr) (all_held s) /\ In (LReg, Rd) (all_held s) /\ ~ Forall done s.
Proof.
  eexists. split; [eapply (l_exec_steps [0; 0; 1]%nat); vm_compute; reflexivity|]. repeat split; try (vm_compute; tauto).
  intros F. inversion F. discriminate.
Qed.
