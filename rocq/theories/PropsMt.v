(** Property C48: calls on aggregator_mt are atomic. *)
From Coq Require Import ZArith List Bool Arith Lia.
From Verif Require Import ModelRegistry SortFacts PropsAggregator.
From Verif Require Import Base ModelTypes ModelReducer SpecReducer ModelSeparator SpecSeparator ModelAggregator SpecAggregator ModelMt.
Import ListNotations.

Section Spec.
  Context {S C R : Type}.
  Variable alone : C -> S -> R * S.
  (** Calls made one after the other *)
  Fixpoint one_by_one (cs : list C) (s : S) : list R * S :=
    match cs with
    | [] => ([], s)
    | c :: t => let '(r, s1) := alone c s in let '(rs, s2) := one_by_one t s1 in (r :: rs, s2)
    end.
End Spec.
(** The part of a numbered list that belongs to thread [i] *)
Definition of_thread {A} (i : nat) (l : list (nat * A)) : list A := map snd (filter (fun x => fst x =? i) l).

Section Machine.
  Context {S C R : Type}.
  Variable body : C -> prog S R.
  Notation alone := (fun c => eval (body c)).

  Definition call_of (x : nat * (C * R)) : C := fst (snd x).
  Definition res_of (x : nat * (C * R)) : R := snd (snd x).
  Definition pending (t : mthread S C R) : list C := match inside t with Some (c, _) => [c] | None => [] end.

  Record MInv (o : S) (ps : list (list C)) (log : list (nat * (C * R))) (s : mstate S C R) : Prop := {
    mi_len : length (m_threads s) = length ps;
    mi_prog : forall i t p, nth_error (m_threads s) i = Some t -> nth_error ps i = Some p ->
      map fst (of_thread i log) ++ pending t ++ todo t = p /\ map snd (of_thread i log) = got t;
    mi_seq : fst (one_by_one alone (map call_of log) o) = map res_of log;
    mi_obj : let ol := snd (one_by_one alone (map call_of log) o) in
      (m_locked s = false /\ m_obj s = ol /\ forall i t, nth_error (m_threads s) i = Some t -> inside t = None) \/
      (m_locked s = true /\ exists i t c p, nth_error (m_threads s) i = Some t /\ inside t = Some (c, p) /\
        eval p (m_obj s) = eval (body c) ol /\ forall j u, j <> i -> nth_error (m_threads s) j = Some u -> inside u = None) }.

  Lemma nth_mid {A} (a b : list A) x y j : nth_error (a ++ x :: b) j = if j =? length a then Some x else nth_error (a ++ y :: b) j.
  Proof.
    destruct (Nat.eqb_spec j (length a)) as [->|N]; [now rewrite nth_error_app2, Nat.sub_diag by lia|].
    destruct (Nat.lt_ge_cases j (length a)); [now rewrite !nth_error_app1 by lia|]. rewrite !nth_error_app2 by lia.
    destruct (j - length a) eqn:E; [lia|reflexivity].
  Qed.
  Lemma nth_here {A} (a b : list A) x : nth_error (a ++ x :: b) (length a) = Some x.
  Proof. rewrite (nth_mid a b x x), Nat.eqb_refl. reflexivity. Qed.

  Lemma one_by_one_app cs c o : one_by_one alone (cs ++ [c]) o =
    (fst (one_by_one alone cs o) ++ [fst (eval (body c) (snd (one_by_one alone cs o)))], snd (eval (body c) (snd (one_by_one alone cs o)))).
  Proof.
    revert o. induction cs as [|x cs IH]; intros o; cbn [one_by_one app].
    - destruct (eval (body c) o) as [r s] eqn:E. cbn. rewrite E. reflexivity.
    - destruct (eval (body x) o) as [r s]. rewrite IH. destruct (one_by_one alone cs s) as [rs s2]. reflexivity.
  Qed.

  Lemma init_minv o ps : MInv o ps [] (m_init o ps).
  Proof.
    unfold m_init. constructor; cbn [m_threads m_locked m_obj].
    - apply map_length.
    - intros i t p H E. rewrite nth_error_map, E in H. injection H as <-. cbn. auto.
    - reflexivity.
    - left. split; [reflexivity|]. split; [reflexivity|]. intros i t H. rewrite nth_error_map in H.
      destruct (nth_error ps i); [|discriminate]. injection H as <-. reflexivity.
  Qed.

  Lemma of_thread_app {A} i (l m : list (nat * A)) : of_thread i (l ++ m) = of_thread i l ++ of_thread i m.
  Proof. unfold of_thread. now rewrite filter_app, map_app. Qed.

  Lemma step_minv o ps log s s' : MInv o ps log s -> mstep body s s' -> exists log', MInv o ps log' s'.
  Proof.
    intros [L P Q M] St. inversion St as [obj a c cs g b|k obj obj' a c cs f p' g b F|k obj a c cs r g b]; subst; cbn [m_threads m_locked m_obj] in *.
    - (* acquire *)
      destruct M as [(_ & -> & N)|(M & _)]; [|discriminate]. exists log. constructor; cbn [m_threads m_locked m_obj]; auto.
      + rewrite !app_length in *. exact L.
      + intros i t p H E. rewrite (nth_mid _ _ _ (mk_mthread (c :: cs) None g)) in H.
        destruct (Nat.eqb_spec i (length a)) as [->|NE]; [|exact (P i t p H E)]. injection H as <-.
        destruct (P (length a) _ p (nth_here _ _ _) E) as [X Y]. cbn in *. auto.
      + right. split; [reflexivity|]. exists (length a). eexists. exists c, (body c). split; [apply nth_here|]. split; [reflexivity|].
        split; [reflexivity|]. intros j u NE H. rewrite (nth_mid _ _ _ (mk_mthread (c :: cs) None g)) in H.
        destruct (Nat.eqb_spec j (length a)); [congruence|]. exact (N j u H).
    - (* statement *)
      destruct M as [(_ & _ & N)|(-> & i & t & c' & p & Hi & It & Ev & N)].
      { specialize (N (length a) _ (nth_here _ _ _)). discriminate. }
      assert (i = length a) as ->.
      { destruct (Nat.eq_dec (length a) i) as [E|E]; [auto|]. specialize (N _ _ E (nth_here _ _ _)). discriminate. }
      rewrite nth_here in Hi. injection Hi as <-. cbn in It. injection It as <- <-.
      exists log. constructor; cbn [m_threads m_locked m_obj]; auto.
      + rewrite !app_length in *. exact L.
      + intros i t p H E. rewrite (nth_mid _ _ _ (mk_mthread cs (Some (c, Do f)) g)) in H.
        destruct (Nat.eqb_spec i (length a)) as [->|NE]; [|exact (P i t p H E)]. injection H as <-.
        destruct (P (length a) _ p (nth_here _ _ _) E) as [X Y]. cbn in *. auto.
      + right. split; [reflexivity|]. exists (length a). eexists. exists c, p'. split; [apply nth_here|]. split; [reflexivity|].
        split; [rewrite <- Ev; cbn; now rewrite F|]. intros j u NE H. rewrite (nth_mid _ _ _ (mk_mthread cs (Some (c, Do f)) g)) in H.
        destruct (Nat.eqb_spec j (length a)); [congruence|]. exact (N j u NE H).
    - (* return *)
      destruct M as [(_ & _ & N)|(-> & i & t & c' & p & Hi & It & Ev & N)].
      { specialize (N (length a) _ (nth_here _ _ _)). discriminate. }
      assert (i = length a) as ->.
      { destruct (Nat.eq_dec (length a) i) as [E|E]; [auto|]. specialize (N _ _ E (nth_here _ _ _)). discriminate. }
      rewrite nth_here in Hi. injection Hi as <-. cbn in It. injection It as <- <-. cbn in Ev.
      exists (log ++ [(length a, (c, r))]).
      assert (OB : one_by_one alone (map call_of (log ++ [(length a, (c, r))])) o = (map res_of (log ++ [(length a, (c, r))]), obj)).
      { rewrite map_app. cbn [map call_of snd fst]. rewrite one_by_one_app, map_app, Q, <- Ev. reflexivity. }
      constructor; cbn [m_threads m_locked m_obj].
      + rewrite !app_length in *. exact L.
      + intros i t p H E. rewrite (nth_mid _ _ _ (mk_mthread cs (Some (c, Ret r)) g)) in H. rewrite of_thread_app, !map_app.
        unfold of_thread at 2 4. cbn [filter fst snd map]. rewrite (Nat.eqb_sym (length a) i).
        destruct (Nat.eqb_spec i (length a)) as [->|NE].
        * injection H as <-. destruct (P (length a) _ p (nth_here _ _ _) E) as [X Y]. cbn in *. rewrite <- app_assoc. cbn. rewrite Y. auto.
        * cbn. rewrite !app_nil_r. exact (P i t p H E).
      + rewrite OB. reflexivity.
      + left. rewrite OB. split; [reflexivity|]. split; [reflexivity|]. intros j u H.
        rewrite (nth_mid _ _ _ (mk_mthread cs (Some (c, Ret r)) g)) in H. destruct (Nat.eqb_spec j (length a)) as [->|NE]; [now injection H as <-|].
        exact (N j u NE H).
  Qed.

  Lemma steps_minv o ps s : msteps body (m_init o ps) s -> exists log, MInv o ps log s.
  Proof.
    intros H. remember (m_init o ps) as s0 eqn:E. induction H as [s|s s1 s2 H IH St]; subst.
    - exists []. apply init_minv.
    - destruct (IH eq_refl) as [log I]. eapply step_minv; eassumption.
  Qed.
End Machine.

(** Any number of threads, any programs, any interleaving of the statements of the member functions, however these are
    divided into statements: at any moment the finished calls can be put in an order that respects the order of calls of each
    thread, such that making them one after the other on the same aggregator gives every thread the results it has got, and,
    when nobody is inside, leaves the aggregator in the state it is in. *)
Theorem C48_atomic : forall ne (body : mtcall -> prog (outcome agg) (outcome (sout + nat))),
  (forall c s, eval (body c) s = mt_do ne c s) ->
  forall g ps s, msteps body (m_init (Ok g) ps) s ->
  exists log : list (nat * mtcall), let '(rs, last) := one_by_one (mt_do ne) (map snd log) (Ok g) in
    length (m_threads s) = length ps /\
    (forall i t p, nth_error (m_threads s) i = Some t -> nth_error ps i = Some p ->
       of_thread i log = firstn (length (of_thread i log)) p /\
       got t = of_thread i (combine (map fst log) rs)) /\
    (m_locked s = false -> m_obj s = last).
Proof.
  intros ne body HB g ps s H. destruct (steps_minv body _ _ _ H) as [log [L P Q M]].
  exists (map (fun x => (fst x, call_of x)) log).
  assert (E : one_by_one (mt_do ne) (map snd (map (fun x => (fst x, call_of x)) log)) (Ok g) = one_by_one (fun c => eval (body c)) (map call_of log) (Ok g)).
  { rewrite map_map. cbn [snd]. change (map (fun x => call_of x) log) with (map call_of log). clear -HB. generalize (map call_of log) as cs, (Ok g) as o. induction cs as [|c cs IH]; intros o; cbn; [reflexivity|].
    rewrite HB. destruct (mt_do ne c o) as [r o1]. now rewrite IH. }
  rewrite E. destruct (one_by_one (fun c => eval (body c)) (map call_of log) (Ok g)) as [rs last]. cbn [fst snd] in *. subst rs.
  split; [exact L|]. split.
  - intros i t p H1 H2. destruct (P i t p H1 H2) as [X Y].
    assert (A : of_thread i (map (fun x => (fst x, call_of x)) log) = map fst (of_thread i log)).
    { clear. unfold of_thread. induction log as [|[j [c r]] log IH]; cbn; [reflexivity|]. destruct (j =? i); cbn; now rewrite IH. }
    assert (B : of_thread i (combine (map fst (map (fun x => (fst x, call_of x)) log)) (map res_of log)) = map snd (of_thread i log)).
    { clear. unfold of_thread. induction log as [|[j [c r]] log IH]; cbn; [reflexivity|]. destruct (j =? i); cbn; now rewrite IH. }
    rewrite A, B. split; [|auto]. rewrite <- X at 1. rewrite firstn_app, Nat.sub_diag. cbn. rewrite firstn_all, app_nil_r. reflexivity.
  - intros F. destruct M as [(_ & M & _)|(M & _)]; [exact M|congruence].
Qed.
Print Assumptions C48_atomic.

(** Nobody can get stuck: as long as a call is unfinished some thread can go on. *)
Theorem C48_no_deadlock : forall ne (body : mtcall -> prog (outcome agg) (outcome (sout + nat))) g ps s,
  msteps body (m_init (Ok g) ps) s -> (forall c s, eval (body c) s = mt_do ne c s) ->
  Exists (fun t => todo t <> [] \/ inside t <> None) (m_threads s) -> exists s', mstep body s s'.
Proof.
  intros ne body g ps s H HB E. destruct (steps_minv body _ _ _ H) as [log [L P Q M]]. destruct s as [k o l]. cbn [m_threads m_locked m_obj] in *.
  destruct M as [(-> & -> & N)|(-> & i & t & c & p & Hi & It & _ & _)].
  - apply Exists_exists in E. destruct E as (t & Ht & Et). apply In_nth_error in Ht. destruct Ht as [i Hi]. specialize (N i t Hi).
    apply nth_error_split in Hi. destruct Hi as (a & b & -> & _). destruct t as [td ins g0]. cbn in *. subst ins.
    destruct td as [|c td]; [tauto|]. eexists. constructor.
  - apply nth_error_split in Hi. destruct Hi as (a & b & -> & _). destruct t as [td ins g0]. cbn in *. subst ins.
    destruct p as [r|f]; [eexists; constructor|]. destruct (f o) as [o' p'] eqn:F. eexists. econstructor. exact F.
Qed.
Print Assumptions C48_no_deadlock.

(** Two threads on one aggregator; the body reads the state in one statement and writes the new one in the next. *)
Definition mt_body (ne : nat -> list Z -> list Z) (c : mtcall) : prog (outcome agg) (outcome (sout + nat)) :=
  Do (fun s => let '(r, s') := mt_do ne c s in (s, Do (fun _ => (s', Ret r)))).
Example C48_witness_body : forall ne c s, eval (mt_body ne c) s = mt_do ne c s.
Proof. intros ne c s. cbn. destruct (mt_do ne c s) as [r s']. reflexivity. Qed.

(** Scheduling by thread number *)
Definition mrun1 {S C R} (body : C -> prog S R) (i : nat) (s : mstate S C R) : option (mstate S C R) :=
  match nth_error (m_threads s) i with
  | None => None
  | Some t =>
      let put k o t' := Some (mk_mstate _ _ _ k o (set_nth i t' (m_threads s))) in
      match inside t, todo t with
      | None, [] => None
      | None, c :: cs => if m_locked s then None else put true (m_obj s) (mk_mthread cs (Some (c, body c)) (got t))
      | Some (c, Do f), cs => let '(o', p') := f (m_obj s) in put (m_locked s) o' (mk_mthread cs (Some (c, p')) (got t))
      | Some (c, Ret r), cs => put false (m_obj s) (mk_mthread cs None (got t ++ [r]))
      end
  end.
Fixpoint mrun {S C R} (body : C -> prog S R) (l : list nat) (s : mstate S C R) : option (mstate S C R) :=
  match l with [] => Some s | i :: r => match mrun1 body i s with None => None | Some s' => mrun body r s' end end.
Lemma mrun_steps {S C R} (body : C -> prog S R) l : forall s0 s s', msteps body s0 s -> mrun body l s = Some s' -> msteps body s0 s'.
Proof.
  induction l as [|i l IH]; intros s0 s s' H E; cbn in E; [injection E as <-; exact H|].
  destruct (mrun1 body i s) as [s1|] eqn:E1; [|discriminate]. apply (IH s0 s1 s'); [|exact E]. econstructor; [exact H|].
  unfold mrun1 in E1. destruct s as [k o ts]. cbn [m_threads m_locked m_obj] in E1.
  destruct (nth_error ts i) as [[td ins g]|] eqn:N; [|discriminate]. apply nth_error_split in N. destruct N as (a & b & -> & <-).
  assert (X : forall x y, set_nth (length a) x (a ++ y :: b) = a ++ x :: b) by (intros; clear; induction a; simpl; [reflexivity|now f_equal]).
  cbn [inside todo got] in E1. destruct ins as [[c [r|f]]|].
  - rewrite X in E1. injection E1 as <-. constructor.
  - destruct (f o) as [o' p'] eqn:F. rewrite X in E1. injection E1 as <-. constructor. exact F.
  - destruct td as [|c td]; [discriminate|]. destruct k; [discriminate|]. rewrite X in E1. injection E1 as <-. constructor.
Qed.

(** Thread 0 is inside add() while thread 1 has already finished a size(). *)
Example C48_witness : exists s, msteps (mt_body ne_rev) (m_init (Ok gx_g0) [map MtCall (firstn 3 gx_ops); [MtSize; MtCall GoForcePop]]) s /\
  map (fun t => length (got t)) (m_threads s) = [1; 1]%nat /\ map (fun t => length (todo t)) (m_threads s) = [1; 1]%nat /\ m_locked s = true.
Proof.
  eexists. split.
  - eapply mrun_steps with (l := [0; 0; 0; 0; 1; 1; 1; 1; 0; 0]%nat); [apply ms_refl|]. vm_compute. reflexivity.
  - vm_compute. auto.
Qed.
