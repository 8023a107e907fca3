(** The lock discipline of ModelRaces keeps every reachable state free of races and of uses of destroyed aggregators. *)
From Coq Require Import List Bool Arith Lia.
From Verif Require Import ModelLocks ModelRaces.
Import ListNotations.

Lemma nth_put_same : forall A x (v : A) l t, nth_error l x = Some t -> nth_error (put x v l) x = Some v.
Proof. intros A x v; induction x as [|x IH]; intros [|y l] t H; cbn in *; try discriminate; [reflexivity|eauto]. Qed.
Lemma nth_put_other : forall A x y (v : A) l, x <> y -> nth_error (put x v l) y = nth_error l y.
Proof.
  intros A x; induction x as [|x IH]; intros [|y] v [|z l] H; cbn; try reflexivity; try congruence. apply IH. congruence.
Qed.
Lemma nth_put : forall A x y (v : A) l t t', nth_error l x = Some t -> nth_error (put x v l) y = Some t' ->
  (x = y /\ t' = v) \/ (x <> y /\ nth_error l y = Some t').
Proof.
  intros A x y v l t t' Hx Hy. destruct (Nat.eq_dec x y) as [E|E].
  - left. subst y. rewrite (nth_put_same _ _ _ _ _ Hx) in Hy. split; congruence.
  - right. rewrite nth_put_other in Hy by exact E. split; assumption.
Qed.

Lemma in_rem : forall i j l, In i (rem j l) -> In i l.
Proof.
  intros i j l; induction l as [|y l IH]; cbn; [tauto|]. destruct (j =? y); cbn; [auto|]. intros [H|H]; auto.
Qed.
Lemma rem_other : forall i j l, i <> j -> In i l -> In i (rem j l).
Proof.
  intros i j l N; induction l as [|y l IH]; cbn; [tauto|]. destruct (Nat.eqb_spec j y) as [E|E]; cbn; intros [H|H]; auto; congruence.
Qed.
Lemma nodup_rem : forall j l, NoDup l -> NoDup (rem j l) /\ ~ In j (rem j l).
Proof.
  intros j l; induction l as [|y l IH]; cbn; intros H; [split; [constructor|tauto]|].
  inversion H as [|? ? H1 H2]; subst. destruct (IH H2) as [I1 I2].
  destruct (Nat.eqb_spec j y) as [E|E]; [subst; split; assumption|].
  split; [constructor; [intro Q; exact (H1 (in_rem _ _ _ Q))|exact I1]|]. intros [Q|Q]; [congruence|exact (I2 Q)].
Qed.
Lemma in_remove1 : forall q h p, In q (remove1 p h) -> In q h.
Proof.
  intros q h p; induction h as [|y h IH]; cbn; [tauto|]. destruct (held_eq_dec p y); cbn; [auto|]. intros [H|H]; auto.
Qed.
Lemma remove1_head : forall p h, remove1 p (p :: h) = h.
Proof. intros p h. cbn. destruct (held_eq_dec p p); congruence. Qed.
Lemma rem_head : forall i l, rem i (i :: l) = l.
Proof. intros i l. cbn. rewrite Nat.eqb_refl. reflexivity. Qed.

Scheme code_mind := Induction for code Sort Prop with body_mind := Induction for body_of Sort Prop
  with bodies_mind := Induction for bodies_of Sort Prop with pops_mind := Induction for pops_of Sort Prop.

Scheme shards_mind := Induction for shards_ok Sort Prop with shard_mind := Induction for shard_body Sort Prop.

Section Discipline.
(** Memory the library does not guard. *)
Variable fr : loc -> bool.
Hypothesis frH : fr LcHand = true.
(** The shared_ptrs a thread has when it ends. *)
Variable fin : list nat.
Definition may (H : list (lk * mode)) (O M : list nat) (y : loc) (w : bool) : Prop :=
  fr y = true \/
  match y with
  | LcHand => False
  | LcAgg i => In i M \/ (In i O /\ In (LAg i, Wr) H)
  | LcPool => exists m, In (LPool, m) H /\ (w = true -> m = Wr)
  | _ => exists m, In (LReg, m) H /\ (w = true -> m = Wr)
  end.
Fixpoint ok (H : list (lk * mode)) (O M : list nat) (p : list ract) : Prop :=
  match p with
  | [] => H = [] /\ O = fin /\ M = []
  | RAcq l m :: p => ok ((l, m) :: H) O M p
  | RRel l m :: p => ok (remove1 (l, m) H) O M p
  | RUse y w :: p => may H O M y w /\ ok H O M p
  | ROwn i :: p | RLock i :: p => ok H (i :: O) M p
  | RMake i :: p => ok H O (i :: M) p
  | RPublish i :: p => ok H (i :: O) (rem i M) p
  | RUnslot i :: p => ok H O M p
  | RDrop i :: p => ok H (rem i O) M p
  | REnd i :: p => ok H O (rem i M) p
  end.

Definition holds_ok (s : rstate) : Prop :=
  forall a b ta tb l m, a <> b -> nth_error (rs_ts s) a = Some ta -> nth_error (rs_ts s) b = Some tb ->
    In (l, Wr) (rt_held ta) -> ~ In (l, m) (rt_held tb).
Definition progs_ok (s : rstate) : Prop :=
  forall a t, nth_error (rs_ts s) a = Some t -> ok (rt_held t) (rt_own t) (rt_mine t) (rt_prog t).
Record mem_ok (s : rstate) : Prop := mk_mem_ok {
  mem_nodup : forall a t, nth_error (rs_ts s) a = Some t -> NoDup (rt_mine t);
  mem_mine : forall a b ta tb i, a <> b -> nth_error (rs_ts s) a = Some ta -> nth_error (rs_ts s) b = Some tb ->
    In i (rt_mine ta) -> ~ In i (rt_mine tb);
  mem_free : forall a t i, nth_error (rs_ts s) a = Some t -> In i (rt_mine t) -> ~ owned i (rs_slot s) (rs_ts s);
  mem_made : forall a t i, nth_error (rs_ts s) a = Some t -> In i (rt_mine t) -> In i (rs_made s);
  mem_owned : forall i, owned i (rs_slot s) (rs_ts s) -> In i (rs_made s);
  mem_dead : forall i, In i (rs_dead s) -> In i (rs_made s) /\ ~ owned i (rs_slot s) (rs_ts s) /\
    forall a t, nth_error (rs_ts s) a = Some t -> ~ In i (rt_mine t) }.

Lemma held_all : forall ts a t q, nth_error ts a = Some t -> In q (rt_held t) -> In q (rall_held ts).
Proof. intros ts a t q H Q. apply in_flat_map. exists t. split; [exact (nth_error_In _ _ H)|exact Q]. Qed.

(** Only the locks of thread [x] change, to a part of what it had. *)
Lemma holds_less : forall sl md dd sl' md' dd' ts x t t', nth_error ts x = Some t -> (forall q, In q (rt_held t') -> In q (rt_held t)) ->
  holds_ok (mk_rstate sl md dd ts) -> holds_ok (mk_rstate sl' md' dd' (put x t' ts)).
Proof.
  intros sl md dd sl' md' dd' ts x t t' Hx Hh HH a b ta tb l m N Ha Hb Q Q'. cbn in *.
  destruct (nth_put _ _ _ _ _ _ _ Hx Ha) as [[E1 E2]|[E1 E2]]; destruct (nth_put _ _ _ _ _ _ _ Hx Hb) as [[F1 F2]|[F1 F2]]; subst.
  - congruence.
  - exact (HH _ _ _ _ l m N Hx F2 (Hh _ Q) Q').
  - exact (HH _ _ _ _ l m N E2 Hx Q (Hh _ Q')).
  - exact (HH _ _ _ _ l m N E2 F2 Q Q').
Qed.

Lemma holds_step : forall s s', rstep s s' -> holds_ok s -> holds_ok s'.
Proof.
  intros s s' Hs HH. inversion Hs; subst;
    try (refine (holds_less _ _ _ _ _ _ _ _ _ _ H _ HH); cbn [rt_held]; intros q Q; exact Q).
  - intros a b ta tb l' m' N Ha Hb Q Q'. cbn in *. unfold compatible in H0.
    destruct (nth_put _ _ _ _ _ _ _ H Ha) as [[E1 E2]|[E1 E2]]; destruct (nth_put _ _ _ _ _ _ _ H Hb) as [[F1 F2]|[F1 F2]]; subst.
    + congruence.
    + cbn in Q. destruct Q as [Q|Q].
      * injection Q as E3 E4. subst. pose proof (held_all _ _ _ _ F2 Q') as R. destruct H0 as [C1 C2]. destruct m'; [exact (C2 R)|exact (C1 R)].
      * exact (HH _ _ _ _ l' m' N H F2 Q Q').
    + cbn in Q'. destruct Q' as [Q'|Q'].
      * injection Q' as E3 E4. subst. pose proof (held_all _ _ _ _ E2 Q) as R. destruct m'; [exact (H0 R)|exact (proj1 H0 R)].
      * exact (HH _ _ _ _ l' m' N E2 H Q Q').
    + exact (HH _ _ _ _ l' m' N E2 F2 Q Q').
  - refine (holds_less _ _ _ _ _ _ _ _ _ _ H _ HH). cbn [rt_held]. intros q Q. exact (in_remove1 _ _ _ Q).
Qed.

Lemma progs_put : forall sl md dd sl' md' dd' ts x t t', nth_error ts x = Some t ->
  ok (rt_held t') (rt_own t') (rt_mine t') (rt_prog t') ->
  progs_ok (mk_rstate sl md dd ts) -> progs_ok (mk_rstate sl' md' dd' (put x t' ts)).
Proof.
  intros sl md dd sl' md' dd' ts x t t' Hx Ho HP a ta Ha. cbn in *.
  destruct (nth_put _ _ _ _ _ _ _ Hx Ha) as [[E1 E2]|[E1 E2]]; subst; [exact Ho|exact (HP _ _ E2)].
Qed.
Lemma ok_dtor : forall H O M i p, ok H O M p -> ok H O (i :: M) (dtor i ++ p).
Proof. intros H O M i p Hp. cbn [dtor app ok may]. rewrite rem_head. split; [right; left; left; reflexivity|exact Hp]. Qed.
Lemma progs_step : forall s s', rstep s s' -> progs_ok s -> progs_ok s'.
Proof.
  intros s s' Hs HP. inversion Hs; subst; refine (progs_put _ _ _ _ _ _ _ _ _ _ H _ HP);
    pose proof (HP _ _ H) as Q; cbn [rt_held rt_own rt_mine rt_prog ok] in *; try exact Q; try (apply ok_dtor; exact Q).
  exact (proj2 Q).
Qed.

(** ** Ownership *)
Lemma owned_put : forall i sl sl' ts x t t', nth_error ts x = Some t ->
  (In i (rt_own t') -> owned i sl ts) -> (In i sl' -> owned i sl ts) -> owned i sl' (put x t' ts) -> owned i sl ts.
Proof.
  intros i sl sl' ts x t t' Hx H1 H2 [H|[u [Hu Hi]]]; [exact (H2 H)|].
  apply In_nth_error in Hu. destruct Hu as [a Ha]. destruct (nth_put _ _ _ _ _ _ _ Hx Ha) as [[E1 E2]|[E1 E2]]; subst.
  - exact (H1 Hi).
  - right. exists u. split; [exact (nth_error_In _ _ E2)|exact Hi].
Qed.
Lemma own_owned : forall i sl ts x t, nth_error ts x = Some t -> In i (rt_own t) -> owned i sl ts.
Proof. intros i sl ts x t Hx Hi. right. exists t. split; [exact (nth_error_In _ _ Hx)|exact Hi]. Qed.

(** A step after which nobody owns more and nobody constructs or destroys more. *)
Lemma mem_less : forall sl md dd ts x t sl' t', nth_error ts x = Some t ->
  (forall i, owned i sl' (put x t' ts) -> owned i sl ts) -> rt_mine t' = rt_mine t ->
  mem_ok (mk_rstate sl md dd ts) -> mem_ok (mk_rstate sl' md dd (put x t' ts)).
Proof.
  intros sl md dd ts x t sl' t' Hx Ho Hm [M1 M2 M3 M4 M5 M6]. cbn [rs_slot rs_made rs_dead rs_ts] in *.
  assert (Q : forall a u, nth_error (put x t' ts) a = Some u -> exists u', nth_error ts a = Some u' /\ rt_mine u = rt_mine u').
  { intros a u Ha. destruct (nth_put _ _ _ _ _ _ _ Hx Ha) as [[E1 E2]|[E1 E2]]; subst; eauto. }
  constructor; cbn [rs_slot rs_made rs_dead rs_ts].
  - intros a u Ha. destruct (Q _ _ Ha) as [u' [Hu ->]]. exact (M1 _ _ Hu).
  - intros a b ta tb i N Ha Hb. destruct (Q _ _ Ha) as [ua [Hua ->]], (Q _ _ Hb) as [ub [Hub ->]]. exact (M2 _ _ _ _ i N Hua Hub).
  - intros a u i Ha Hi O. destruct (Q _ _ Ha) as [u' [Hu E]]. rewrite E in Hi. exact (M3 _ _ i Hu Hi (Ho _ O)).
  - intros a u i Ha Hi. destruct (Q _ _ Ha) as [u' [Hu E]]. rewrite E in Hi. exact (M4 _ _ i Hu Hi).
  - intros i O. exact (M5 _ (Ho _ O)).
  - intros i D. destruct (M6 _ D) as [D1 [D2 D3]]. split; [exact D1|split]; [intro O; exact (D2 (Ho _ O))|].
    intros a u Ha. destruct (Q _ _ Ha) as [u' [Hu ->]]. exact (D3 _ _ Hu).
Qed.

(** The last shared_ptr goes: the thread destroys. *)
Lemma mem_last : forall sl md dd ts x h o m p sl' o' p' i h', nth_error ts x = Some (mk_rthread h o m p) ->
  owned i sl ts -> ~ owned i sl' (put x (mk_rthread h' o' (i :: m) p') ts) ->
  (forall j, owned j sl' (put x (mk_rthread h' o' (i :: m) p') ts) -> owned j sl ts) ->
  mem_ok (mk_rstate sl md dd ts) -> mem_ok (mk_rstate sl' md dd (put x (mk_rthread h' o' (i :: m) p') ts)).
Proof.
  intros sl md dd ts x h o m p sl' o' p' i h' Hx Hi Hn Ho [M1 M2 M3 M4 M5 M6]. cbn [rs_slot rs_made rs_dead rs_ts] in *.
  set (t' := mk_rthread h' o' (i :: m) p') in *.
  assert (Ni : forall a u, nth_error ts a = Some u -> ~ In i (rt_mine u)) by (intros a u Ha Q; exact (M3 _ _ _ Ha Q Hi)).
  constructor; cbn [rs_slot rs_made rs_dead rs_ts].
  - intros a u Ha. destruct (nth_put _ _ _ _ _ _ _ Hx Ha) as [[E1 E2]|[E1 E2]]; subst; [|exact (M1 _ _ E2)].
    cbn. constructor; [exact (Ni _ _ Hx)|exact (M1 _ _ Hx)].
  - intros a b ta tb j N Ha Hb. destruct (nth_put _ _ _ _ _ _ _ Hx Ha) as [[E1 E2]|[E1 E2]]; destruct (nth_put _ _ _ _ _ _ _ Hx Hb) as [[F1 F2]|[F1 F2]]; subst.
    + congruence.
    + cbn. intros [<-|Q]; [exact (Ni _ _ F2)|exact (M2 _ _ _ _ _ N Hx F2 Q)].
    + intros Q. cbn. intros [<-|Q']; [exact (Ni _ _ E2 Q)|exact (M2 _ _ _ _ _ N E2 Hx Q Q')].
    + exact (M2 _ _ _ _ _ N E2 F2).
  - intros a u j Ha Hj O. destruct (nth_put _ _ _ _ _ _ _ Hx Ha) as [[E1 E2]|[E1 E2]]; subst; [|exact (M3 _ _ _ E2 Hj (Ho _ O))].
    cbn in Hj. destruct Hj as [<-|Hj]; [exact (Hn O)|exact (M3 _ _ _ Hx Hj (Ho _ O))].
  - intros a u j Ha Hj. destruct (nth_put _ _ _ _ _ _ _ Hx Ha) as [[E1 E2]|[E1 E2]]; subst; [|exact (M4 _ _ _ E2 Hj)].
    cbn in Hj. destruct Hj as [<-|Hj]; [exact (M5 _ Hi)|exact (M4 _ _ _ Hx Hj)].
  - intros j O. exact (M5 _ (Ho _ O)).
  - intros j D. destruct (M6 _ D) as [D1 [D2 D3]]. split; [exact D1|split]; [intro O; exact (D2 (Ho _ O))|].
    intros a u Ha. destruct (nth_put _ _ _ _ _ _ _ Hx Ha) as [[E1 E2]|[E1 E2]]; subst; [|exact (D3 _ _ E2)].
    cbn. intros [<-|Q]; [exact (D2 Hi)|exact (D3 _ _ Hx Q)].
Qed.

Lemma mem_step : forall s s', rstep s s' -> mem_ok s -> mem_ok s'.
Proof.
  intros s s' Hs HM. inversion Hs; subst; clear Hs; rename H into Hx.
  - (* acquire *) refine (mem_less _ _ _ _ _ _ _ _ Hx _ _ HM); [|reflexivity]. intros i O.
    refine (owned_put _ _ _ _ _ _ _ Hx _ _ O); cbn; intros Q; [exact (own_owned _ _ _ _ _ Hx Q)|left; exact Q].
  - refine (mem_less _ _ _ _ _ _ _ _ Hx _ _ HM); [|reflexivity]. intros i O.
    refine (owned_put _ _ _ _ _ _ _ Hx _ _ O); cbn; intros Q; [exact (own_owned _ _ _ _ _ Hx Q)|left; exact Q].
  - refine (mem_less _ _ _ _ _ _ _ _ Hx _ _ HM); [|reflexivity]. intros i O.
    refine (owned_put _ _ _ _ _ _ _ Hx _ _ O); cbn; intros Q; [exact (own_owned _ _ _ _ _ Hx Q)|left; exact Q].
  - (* own *) refine (mem_less _ _ _ _ _ _ _ _ Hx _ _ HM); [|reflexivity]. intros j O.
    refine (owned_put _ _ _ _ _ _ _ Hx _ _ O); cbn; intros Q; [|left; exact Q].
    destruct Q as [<-|Q]; [left; exact H0|exact (own_owned _ _ _ _ _ Hx Q)].
  - (* lock *) refine (mem_less _ _ _ _ _ _ _ _ Hx _ _ HM); [|reflexivity]. intros j O.
    refine (owned_put _ _ _ _ _ _ _ Hx _ _ O); cbn; intros Q; [|left; exact Q].
    destruct Q as [<-|Q]; [exact H0|exact (own_owned _ _ _ _ _ Hx Q)].
  - (* make *)
    destruct HM as [M1 M2 M3 M4 M5 M6]. cbn [rs_slot rs_made rs_dead rs_ts] in *.
    assert (Ho : forall j, owned j sl (put x (mk_rthread h o (i :: m) p) ts) -> owned j sl ts).
    { intros j O. refine (owned_put _ _ _ _ _ _ _ Hx _ _ O); cbn; intros Q; [exact (own_owned _ _ _ _ _ Hx Q)|left; exact Q]. }
    constructor; cbn [rs_slot rs_made rs_dead rs_ts].
    + intros a u Ha. destruct (nth_put _ _ _ _ _ _ _ Hx Ha) as [[E1 E2]|[E1 E2]]; subst; [|exact (M1 _ _ E2)].
      cbn. constructor; [intro Q; exact (H0 (M4 _ _ _ Hx Q))|exact (M1 _ _ Hx)].
    + intros a b ta tb j N Ha Hb. destruct (nth_put _ _ _ _ _ _ _ Hx Ha) as [[E1 E2]|[E1 E2]]; destruct (nth_put _ _ _ _ _ _ _ Hx Hb) as [[F1 F2]|[F1 F2]]; subst.
      * congruence.
      * cbn. intros [<-|Q] Q'; [exact (H0 (M4 _ _ _ F2 Q'))|exact (M2 _ _ _ _ _ N Hx F2 Q Q')].
      * intros Q. cbn. intros [<-|Q']; [exact (H0 (M4 _ _ _ E2 Q))|exact (M2 _ _ _ _ _ N E2 Hx Q Q')].
      * exact (M2 _ _ _ _ _ N E2 F2).
    + intros a u j Ha Hj O. destruct (nth_put _ _ _ _ _ _ _ Hx Ha) as [[E1 E2]|[E1 E2]]; subst; [|exact (M3 _ _ _ E2 Hj (Ho _ O))].
      cbn in Hj. destruct Hj as [<-|Hj]; [exact (H0 (M5 _ (Ho _ O)))|exact (M3 _ _ _ Hx Hj (Ho _ O))].
    + intros a u j Ha Hj. destruct (nth_put _ _ _ _ _ _ _ Hx Ha) as [[E1 E2]|[E1 E2]]; subst; [|right; exact (M4 _ _ _ E2 Hj)].
      cbn in Hj. destruct Hj as [<-|Hj]; [left; reflexivity|right; exact (M4 _ _ _ Hx Hj)].
    + intros j O. right. exact (M5 _ (Ho _ O)).
    + intros j D. destruct (M6 _ D) as [D1 [D2 D3]]. split; [right; exact D1|split]; [intro O; exact (D2 (Ho _ O))|].
      intros a u Ha. destruct (nth_put _ _ _ _ _ _ _ Hx Ha) as [[E1 E2]|[E1 E2]]; subst; [|exact (D3 _ _ E2)].
      cbn. intros [<-|Q]; [exact (H0 D1)|exact (D3 _ _ Hx Q)].
  - (* publish *)
    destruct HM as [M1 M2 M3 M4 M5 M6]. cbn [rs_slot rs_made rs_dead rs_ts] in *.
    pose proof (nodup_rem i m (M1 _ _ Hx)) as [R1 R2].
    assert (Ho : forall j, owned j (i :: sl) (put x (mk_rthread h (i :: o) (rem i m) p) ts) -> j = i \/ owned j sl ts).
    { intros j [[Q|Q]|[u [Hu Hj]]]; [left; congruence|right; left; exact Q|]. apply In_nth_error in Hu. destruct Hu as [a Ha].
      destruct (nth_put _ _ _ _ _ _ _ Hx Ha) as [[E1 E2]|[E1 E2]]; subst.
      - cbn in Hj. destruct Hj as [->|Hj]; [left; reflexivity|right; exact (own_owned _ _ _ _ _ Hx Hj)].
      - right. exact (own_owned _ _ _ _ _ E2 Hj). }
    constructor; cbn [rs_slot rs_made rs_dead rs_ts].
    + intros a u Ha. destruct (nth_put _ _ _ _ _ _ _ Hx Ha) as [[E1 E2]|[E1 E2]]; subst; [exact R1|exact (M1 _ _ E2)].
    + intros a b ta tb j N Ha Hb. destruct (nth_put _ _ _ _ _ _ _ Hx Ha) as [[E1 E2]|[E1 E2]]; destruct (nth_put _ _ _ _ _ _ _ Hx Hb) as [[F1 F2]|[F1 F2]]; subst.
      * congruence.
      * cbn. intros Q. exact (M2 _ _ _ _ _ N Hx F2 (in_rem _ _ _ Q)).
      * intros Q. cbn. intros Q'. exact (M2 _ _ _ _ _ N E2 Hx Q (in_rem _ _ _ Q')).
      * exact (M2 _ _ _ _ _ N E2 F2).
    + intros a u j Ha Hj O. destruct (nth_put _ _ _ _ _ _ _ Hx Ha) as [[E1 E2]|[E1 E2]]; subst; destruct (Ho _ O) as [E|O'].
      * subst j. exact (R2 Hj).
      * exact (M3 _ _ _ Hx (in_rem _ _ _ Hj) O').
      * subst j. exact (M2 _ _ _ _ _ E1 Hx E2 H0 Hj).
      * exact (M3 _ _ _ E2 Hj O').
    + intros a u j Ha Hj. destruct (nth_put _ _ _ _ _ _ _ Hx Ha) as [[E1 E2]|[E1 E2]]; subst; [|exact (M4 _ _ _ E2 Hj)].
      exact (M4 _ _ _ Hx (in_rem _ _ _ Hj)).
    + intros j O. destruct (Ho _ O) as [->|O']; [exact (M4 _ _ _ Hx H0)|exact (M5 _ O')].
    + intros j D. destruct (M6 _ D) as [D1 [D2 D3]]. split; [exact D1|split].
      * intro O. destruct (Ho _ O) as [->|O']; [exact (D3 _ _ Hx H0)|exact (D2 O')].
      * intros a u Ha. destruct (nth_put _ _ _ _ _ _ _ Hx Ha) as [[E1 E2]|[E1 E2]]; subst; [|exact (D3 _ _ E2)].
        intro Q. exact (D3 _ _ Hx (in_rem _ _ _ Q)).
  - (* unslot *) refine (mem_less _ _ _ _ _ _ _ _ Hx _ _ HM); [|reflexivity]. intros j O.
    refine (owned_put _ _ _ _ _ _ _ Hx _ _ O); cbn; intros Q.
    + exact (own_owned _ _ _ _ _ Hx Q).
    + left. exact (in_rem _ _ _ Q).
  - (* unslot, last *)
    assert (Ho : forall j, owned j (rem i sl) (put x (mk_rthread h o (i :: m) (dtor i ++ p)) ts) -> owned j (rem i sl) ts).
    { intros j O. refine (owned_put _ _ _ _ _ _ _ Hx _ _ O); cbn; intros Q; [exact (own_owned _ _ _ _ _ Hx Q)|left; exact Q]. }
    refine (mem_last _ _ _ _ _ _ _ _ _ _ _ _ _ _ Hx (or_introl H0) (fun O => H1 (Ho _ O)) _ HM).
    intros j O. destruct (Ho _ O) as [Q|Q]; [left; exact (in_rem _ _ _ Q)|right; exact Q].
  - (* drop *) refine (mem_less _ _ _ _ _ _ _ _ Hx _ _ HM); [|reflexivity]. intros j O.
    refine (owned_put _ _ _ _ _ _ _ Hx _ _ O); cbn; intros Q; [|left; exact Q].
    exact (own_owned _ _ _ _ _ Hx (in_rem _ _ _ Q)).
  - (* drop, last *)
    assert (Ho : forall j, owned j sl (put x (mk_rthread h (rem i o) (i :: m) (dtor i ++ p)) ts) -> owned j sl (put x (mk_rthread h (rem i o) m p) ts)).
    { intros j [Q|[u [Hu Hj]]]; [left; exact Q|]. apply In_nth_error in Hu. destruct Hu as [a Ha].
      destruct (nth_put _ _ _ _ _ _ _ Hx Ha) as [[E1 E2]|[E1 E2]]; subst.
      - apply (own_owned _ _ _ a (mk_rthread h (rem i o) m p)); [exact (nth_put_same _ _ _ _ _ Hx)|exact Hj].
      - apply (own_owned _ _ _ a u); [rewrite nth_put_other by exact E1; exact E2|exact Hj]. }
    refine (mem_last _ _ _ _ _ _ _ _ _ _ _ _ _ _ Hx (own_owned _ _ _ _ _ Hx H0) (fun O => H1 (Ho _ O)) _ HM).
    intros j O. refine (owned_put _ _ _ _ _ _ _ Hx _ _ O); cbn; intros Q; [|left; exact Q].
    exact (own_owned _ _ _ _ _ Hx (in_rem _ _ _ Q)).
  - (* end *)
    destruct HM as [M1 M2 M3 M4 M5 M6]. cbn [rs_slot rs_made rs_dead rs_ts] in *.
    pose proof (nodup_rem i m (M1 _ _ Hx)) as [R1 R2].
    assert (Ho : forall j, owned j sl (put x (mk_rthread h o (rem i m) p) ts) -> owned j sl ts).
    { intros j O. refine (owned_put _ _ _ _ _ _ _ Hx _ _ O); cbn; intros Q; [exact (own_owned _ _ _ _ _ Hx Q)|left; exact Q]. }
    constructor; cbn [rs_slot rs_made rs_dead rs_ts].
    + intros a u Ha. destruct (nth_put _ _ _ _ _ _ _ Hx Ha) as [[E1 E2]|[E1 E2]]; subst; [exact R1|exact (M1 _ _ E2)].
    + intros a b ta tb j N Ha Hb. destruct (nth_put _ _ _ _ _ _ _ Hx Ha) as [[E1 E2]|[E1 E2]]; destruct (nth_put _ _ _ _ _ _ _ Hx Hb) as [[F1 F2]|[F1 F2]]; subst.
      * congruence.
      * cbn. intros Q. exact (M2 _ _ _ _ _ N Hx F2 (in_rem _ _ _ Q)).
      * intros Q. cbn. intros Q'. exact (M2 _ _ _ _ _ N E2 Hx Q (in_rem _ _ _ Q')).
      * exact (M2 _ _ _ _ _ N E2 F2).
    + intros a u j Ha Hj O. destruct (nth_put _ _ _ _ _ _ _ Hx Ha) as [[E1 E2]|[E1 E2]]; subst.
      * exact (M3 _ _ _ Hx (in_rem _ _ _ Hj) (Ho _ O)).
      * exact (M3 _ _ _ E2 Hj (Ho _ O)).
    + intros a u j Ha Hj. destruct (nth_put _ _ _ _ _ _ _ Hx Ha) as [[E1 E2]|[E1 E2]]; subst; [|exact (M4 _ _ _ E2 Hj)].
      exact (M4 _ _ _ Hx (in_rem _ _ _ Hj)).
    + intros j O. exact (M5 _ (Ho _ O)).
    + intros j [<-|D].
      * split; [exact (M4 _ _ _ Hx H0)|split]; [intro O; exact (M3 _ _ _ Hx H0 (Ho _ O))|].
        intros a u Ha Q. destruct (nth_put _ _ _ _ _ _ _ Hx Ha) as [[E1 E2]|[E1 E2]]; subst; [exact (R2 Q)|].
        exact (M2 _ _ _ _ _ E1 Hx E2 H0 Q).
      * destruct (M6 _ D) as [D1 [D2 D3]]. split; [exact D1|split]; [intro O; exact (D2 (Ho _ O))|].
        intros a u Ha. destruct (nth_put _ _ _ _ _ _ _ Hx Ha) as [[E1 E2]|[E1 E2]]; subst; [|exact (D3 _ _ E2)].
        intro Q. exact (D3 _ _ Hx (in_rem _ _ _ Q)).
Qed.

(** ** Nothing is destroyed twice, nothing is lost *)
Definition kept (s : rstate) (i : nat) : Prop :=
  owned i (rs_slot s) (rs_ts s) \/ (exists a t, nth_error (rs_ts s) a = Some t /\ In i (rt_mine t)) \/ In i (rs_dead s).
Definition kept_ok (s : rstate) : Prop := forall i, In i (rs_made s) -> kept s i.

Lemma kept_put : forall sl md dd ts x t sl' md' dd' t' i, nth_error ts x = Some t ->
  let s' := mk_rstate sl' md' dd' (put x t' ts) in
  (In i sl -> kept s' i) -> (In i (rt_own t) -> kept s' i) -> (In i (rt_mine t) -> kept s' i) -> (In i dd -> kept s' i) ->
  kept (mk_rstate sl md dd ts) i -> kept s' i.
Proof.
  intros sl md dd ts x t sl' md' dd' t' i Hx s' H1 H2 H3 H4 [[Q|[u [Hu Hi]]]|[[a [u [Ha Hi]]]|Q]]; cbn [rs_slot rs_ts rs_dead] in *.
  - exact (H1 Q).
  - apply In_nth_error in Hu. destruct Hu as [a Ha]. destruct (Nat.eq_dec x a) as [->|N].
    + assert (u = t) by congruence. subst u. exact (H2 Hi).
    + left. right. exists u. split; [|exact Hi]. apply (nth_error_In _ a). cbn. rewrite nth_put_other by exact N. exact Ha.
  - destruct (Nat.eq_dec x a) as [->|N].
    + assert (u = t) by congruence. subst u. exact (H3 Hi).
    + right. left. exists a, u. split; [|exact Hi]. cbn. rewrite nth_put_other by exact N. exact Ha.
  - exact (H4 Q).
Qed.
Lemma kept_slot : forall sl md dd ts i, In i sl -> kept (mk_rstate sl md dd ts) i.
Proof. intros. left. left. assumption. Qed.
Lemma kept_own : forall sl md dd ts x t t' i, nth_error ts x = Some t -> In i (rt_own t') -> kept (mk_rstate sl md dd (put x t' ts)) i.
Proof. intros sl md dd ts x t t' i Hx Hi. left. exact (own_owned _ _ _ _ _ (nth_put_same _ _ _ _ _ Hx) Hi). Qed.
Lemma kept_mine : forall sl md dd ts x t t' i, nth_error ts x = Some t -> In i (rt_mine t') -> kept (mk_rstate sl md dd (put x t' ts)) i.
Proof. intros sl md dd ts x t t' i Hx Hi. right. left. exists x, t'. split; [exact (nth_put_same _ _ _ _ _ Hx)|exact Hi]. Qed.
Lemma kept_dead : forall sl md dd ts i, In i dd -> kept (mk_rstate sl md dd ts) i.
Proof. intros. right. right. assumption. Qed.

Lemma kept_step : forall s s', rstep s s' -> kept_ok s -> kept_ok s'.
Proof.
  intros s s' Hs HK j Hj. inversion Hs; subst; clear Hs; rename H into Hx; cbn [rs_made] in Hj;
    try (assert (J : j = i \/ j <> i) by (destruct (Nat.eq_dec j i); auto));
    try (refine (kept_put _ _ _ _ _ _ _ _ _ _ _ Hx _ _ _ _ (HK _ Hj)); cbn; intros Q;
      [apply kept_slot; solve [exact Q|right; exact Q]
      |apply (kept_own _ _ _ _ _ _ _ _ Hx); cbn; solve [exact Q|right; exact Q]
      |apply (kept_mine _ _ _ _ _ _ _ _ Hx); cbn; solve [exact Q|right; exact Q]
      |apply kept_dead; solve [exact Q|right; exact Q]]).
  - (* make *) destruct Hj as [<-|Hj]; [apply (kept_mine _ _ _ _ _ _ _ _ Hx); left; reflexivity|].
    refine (kept_put _ _ _ _ _ _ _ _ _ _ _ Hx _ _ _ _ (HK _ Hj)); cbn; intros Q.
    + apply kept_slot. exact Q.
    + apply (kept_own _ _ _ _ _ _ _ _ Hx). exact Q.
    + apply (kept_mine _ _ _ _ _ _ _ _ Hx). right. exact Q.
    + apply kept_dead. exact Q.
  - (* publish *) destruct J as [->|N]; [apply kept_slot; left; reflexivity|].
    refine (kept_put _ _ _ _ _ _ _ _ _ _ _ Hx _ _ _ _ (HK _ Hj)); cbn; intros Q.
    + apply kept_slot. right. exact Q.
    + apply (kept_own _ _ _ _ _ _ _ _ Hx). right. exact Q.
    + apply (kept_mine _ _ _ _ _ _ _ _ Hx). exact (rem_other _ _ _ N Q).
    + apply kept_dead. exact Q.
  - (* unslot *) destruct J as [->|N].
    + destruct H1 as [Q|[u [Hu Hi]]]; [apply kept_slot; exact Q|].
      refine (kept_put (rem i sl) md dd _ _ _ _ _ _ _ _ Hx _ _ _ _ _); cbn; try intros Q.
      * apply kept_slot. exact Q.
      * apply (kept_own _ _ _ _ _ _ _ _ Hx). exact Q.
      * apply (kept_mine _ _ _ _ _ _ _ _ Hx). exact Q.
      * apply kept_dead. exact Q.
      * left. right. exists u. split; assumption.
    + refine (kept_put _ _ _ _ _ _ _ _ _ _ _ Hx _ _ _ _ (HK _ Hj)); cbn; intros Q.
      * apply kept_slot. exact (rem_other _ _ _ N Q).
      * apply (kept_own _ _ _ _ _ _ _ _ Hx). exact Q.
      * apply (kept_mine _ _ _ _ _ _ _ _ Hx). exact Q.
      * apply kept_dead. exact Q.
  - (* unslot, last *) destruct J as [->|N]; [apply (kept_mine _ _ _ _ _ _ _ _ Hx); left; reflexivity|].
    refine (kept_put _ _ _ _ _ _ _ _ _ _ _ Hx _ _ _ _ (HK _ Hj)); cbn; intros Q.
    + apply kept_slot. exact (rem_other _ _ _ N Q).
    + apply (kept_own _ _ _ _ _ _ _ _ Hx). exact Q.
    + apply (kept_mine _ _ _ _ _ _ _ _ Hx). right. exact Q.
    + apply kept_dead. exact Q.
  - (* drop *) destruct J as [->|N]; [left; exact H1|].
    refine (kept_put _ _ _ _ _ _ _ _ _ _ _ Hx _ _ _ _ (HK _ Hj)); cbn; intros Q.
    + apply kept_slot. exact Q.
    + apply (kept_own _ _ _ _ _ _ _ _ Hx). exact (rem_other _ _ _ N Q).
    + apply (kept_mine _ _ _ _ _ _ _ _ Hx). exact Q.
    + apply kept_dead. exact Q.
  - (* drop, last *) destruct J as [->|N]; [apply (kept_mine _ _ _ _ _ _ _ _ Hx); left; reflexivity|].
    refine (kept_put _ _ _ _ _ _ _ _ _ _ _ Hx _ _ _ _ (HK _ Hj)); cbn; intros Q.
    + apply kept_slot. exact Q.
    + apply (kept_own _ _ _ _ _ _ _ _ Hx). exact (rem_other _ _ _ N Q).
    + apply (kept_mine _ _ _ _ _ _ _ _ Hx). right. exact Q.
    + apply kept_dead. exact Q.
  - (* end *) destruct J as [->|N]; [apply kept_dead; left; reflexivity|].
    refine (kept_put _ _ _ _ _ _ _ _ _ _ _ Hx _ _ _ _ (HK _ Hj)); cbn; intros Q.
    + apply kept_slot. exact Q.
    + apply (kept_own _ _ _ _ _ _ _ _ Hx). exact Q.
    + apply (kept_mine _ _ _ _ _ _ _ _ Hx). exact (rem_other _ _ _ N Q).
    + apply kept_dead. right. exact Q.
Qed.
Lemma once_step : forall s s', rstep s s' -> mem_ok s -> NoDup (rs_dead s) -> NoDup (rs_dead s').
Proof.
  intros s s' Hs HM HN. inversion Hs; subst; cbn [rs_dead] in *; try exact HN.
  constructor; [|exact HN]. intro D. destruct (mem_dead _ HM _ D) as [_ [_ D3]]. exact (D3 _ _ H H0).
Qed.

Definition inv (s : rstate) : Prop := holds_ok s /\ progs_ok s /\ mem_ok s /\ kept_ok s /\ NoDup (rs_dead s).
Lemma inv_steps : forall s s', rsteps s s' -> inv s -> inv s'.
Proof.
  intros s s' H; induction H as [s|s1 s2 s3 H IH Hs]; intros HI; [exact HI|].
  destruct (IH HI) as [A [B [C [D E]]]]. split; [exact (holds_step _ _ Hs A)|split; [exact (progs_step _ _ Hs B)|split; [exact (mem_step _ _ Hs C)|]]].
  split; [exact (kept_step _ _ Hs D)|exact (once_step _ _ Hs C E)].
Qed.

Lemma inv_race : forall s y, inv s -> fr y = false -> ~ race s y.
Proof.
  intros s y [HH [HP [HM _]]] Ny [a [b [ta [tb [wa [wb [pa [pb [N [Ha [Hb [Ea [Eb W]]]]]]]]]]]]].
  pose proof (HP _ _ Ha) as Qa. pose proof (HP _ _ Hb) as Qb. rewrite Ea in Qa. rewrite Eb in Qb. cbn [ok] in Qa, Qb.
  destruct Qa as [[Qa|Qa] _], Qb as [[Qb|Qb] _]; try congruence.
  assert (K : forall l, (exists m, In (l, m) (rt_held ta) /\ (wa = true -> m = Wr)) -> (exists m, In (l, m) (rt_held tb) /\ (wb = true -> m = Wr)) -> False).
  { intros l [m1 [I1 E1]] [m2 [I2 E2]]. destruct wa.
    - rewrite (E1 eq_refl) in I1. exact (HH _ _ _ _ _ _ N Ha Hb I1 I2).
    - cbn in W. rewrite (E2 W) in I2. exact (HH _ _ _ _ _ _ (not_eq_sym N) Hb Ha I2 I1). }
  destruct y as [| | | | | | | |i]; try (exact (K _ Qa Qb)); [destruct Qa|].
  cbn [may] in Qa, Qb. destruct Qa as [Qa|[Qa La]], Qb as [Qb|[Qb Lb]].
  - exact (mem_mine _ HM _ _ _ _ _ N Ha Hb Qa Qb).
  - exact (mem_free _ HM _ _ _ Ha Qa (own_owned _ _ _ _ _ Hb Qb)).
  - exact (mem_free _ HM _ _ _ Hb Qb (own_owned _ _ _ _ _ Ha Qa)).
  - exact (HH _ _ _ _ _ _ N Ha Hb La Lb).
Qed.

Lemma inv_alive : forall s a t i w p, fr (LcAgg i) = false -> inv s -> nth_error (rs_ts s) a = Some t -> rt_prog t = RUse (LcAgg i) w :: p ->
  In i (rs_made s) /\ ~ In i (rs_dead s).
Proof.
  intros s a t i w p Fi [_ [HP [HM _]]] Ha E. pose proof (HP _ _ Ha) as Q. rewrite E in Q. cbn [ok may] in Q. destruct Q as [[Q|[Q|[Q _]]] _]; [congruence| |].
  - split; [exact (mem_made _ HM _ _ _ Ha Q)|]. intro D. destruct (mem_dead _ HM _ D) as [_ [_ D3]]. exact (D3 _ _ Ha Q).
  - pose proof (own_owned _ (rs_slot s) _ _ _ Ha Q) as O. split; [exact (mem_owned _ HM _ O)|].
    intro D. destruct (mem_dead _ HM _ D) as [_ [D2 _]]. exact (D2 O).
Qed.

(** When the threads have ended: they hold nothing, and every aggregator made is in the registry, or kept by [fin], or destroyed. *)
Lemma inv_ended : forall s, inv s -> (forall a t, nth_error (rs_ts s) a = Some t -> rt_prog t = []) ->
  (forall a t, nth_error (rs_ts s) a = Some t -> rt_held t = [] /\ rt_own t = fin) /\
  (forall i, In i (rs_made s) -> In i (rs_slot s) \/ In i fin \/ In i (rs_dead s)).
Proof.
  intros s [_ [HP [_ [HK _]]]] HE.
  assert (Q : forall a t, nth_error (rs_ts s) a = Some t -> rt_held t = [] /\ rt_own t = fin /\ rt_mine t = []).
  { intros a t Ha. pose proof (HP _ _ Ha) as Q. rewrite (HE _ _ Ha) in Q. exact Q. }
  split; [intros a t Ha; destruct (Q _ _ Ha) as [Q1 [Q2 _]]; split; assumption|].
  intros i Hi. destruct (HK _ Hi) as [[K|[t [Ht K]]]|[[a [t [Ha K]]]|K]].
  - left. exact K.
  - apply In_nth_error in Ht. destruct Ht as [a Ha]. destruct (Q _ _ Ha) as [_ [Q2 _]]. rewrite Q2 in K. right. left. exact K.
  - destruct (Q _ _ Ha) as [_ [_ Q3]]. rewrite Q3 in K. destruct K.
  - right. right. exact K.
Qed.

(** ** The calls obey the discipline *)
Definition safe (P : list (lk * mode) -> list nat -> Prop) (p : list ract) : Prop :=
  forall H O M k, P H O -> ok H O M k -> ok H O M (p ++ k).
Definition always (H : list (lk * mode)) (O : list nat) : Prop := True.
Definition within (i : nat) (H : list (lk * mode)) (O : list nat) : Prop := In i O /\ In (LAg i, Wr) H.

Lemma ok_sect : forall H O M l m body k, (forall k', ok ((l, m) :: H) O M k' -> ok ((l, m) :: H) O M (body ++ k')) -> ok H O M k ->
  ok H O M (rsect l m body ++ k).
Proof.
  intros H O M l m body k Hb Hk. unfold rsect. cbn [app ok]. rewrite <- app_assoc. apply Hb. cbn [app ok]. rewrite remove1_head. exact Hk.
Qed.
Lemma ok_method : forall i body H O M k, In i O -> safe (within i) body -> ok H O M k -> ok H O M (k_method i body ++ k).
Proof.
  intros i body H O M k Hi Hb Hk. apply ok_sect; [|exact Hk]. intros k' Hk'. apply Hb; [|exact Hk'].
  split; [exact Hi|left; reflexivity].
Qed.
Lemma ok_methods : forall i bodies H O M k, In i O -> Forall (safe (within i)) bodies -> ok H O M k -> ok H O M (flat_map (k_method i) bodies ++ k).
Proof.
  intros i bodies H O M k Hi Hb; induction Hb as [|b l Hb Hl IH]; intros Hk; [exact Hk|].
  cbn [flat_map]. rewrite <- app_assoc. apply ok_method; [exact Hi|exact Hb|exact (IH Hk)].
Qed.
Lemma may_wr : forall (l : lk) (w : bool) (H : list (lk * mode)), exists m', In (l, m') ((l, Wr) :: H) /\ (w = true -> m' = Wr).
Proof. intros l w H. exists Wr. split; [left; reflexivity|reflexivity]. Qed.
Lemma may_rd : forall (l : lk) (m : mode) (H : list (lk * mode)), exists m', In (l, m') ((l, m) :: H) /\ (false = true -> m' = Wr).
Proof. intros l m H. exists m. split; [left; reflexivity|discriminate]. Qed.
Ltac guarded := right; first [apply may_wr | apply may_rd].
Ltac simple := intros H O M k _ Hk; apply ok_sect; [intros k' Hk'; cbn [app ok may]; repeat (split; [guarded|]); exact Hk'|exact Hk].

Lemma ok_get : forall i H O M k, ok H (i :: O) M k -> ok H O M (k_get i ++ k).
Proof.
  intros i H O M k Hk. unfold k_get, rsect. cbn [app ok may]. split; [guarded|]. split; [guarded|]. rewrite remove1_head. exact Hk.
Qed.
Lemma ok_none : safe always k_none.
Proof. simple. Qed.
Lemma ok_make : forall i H O M k, ok ((LReg, Wr) :: H) (i :: O) M k -> ok ((LReg, Wr) :: H) O M (k_make i ++ k).
Proof.
  intros i H O M k Hk. unfold k_make. cbn [app ok may]. repeat (split; [guarded|]). rewrite rem_head.
  split; [right; left; left; reflexivity|]. repeat (split; [guarded|]). exact Hk.
Qed.
Lemma within_use : forall i w, safe (within i) [RUse (LcAgg i) w].
Proof. intros i w H O M k [Hi Hl] Hk. cbn [app ok may]. split; [right; right; split; assumption|exact Hk]. Qed.
Lemma ok_pops : forall l H O M k, Forall (fun q => safe (within (fst q)) (fst (fst (snd q))) /\ safe (within (fst q)) (snd (fst (snd q)))) l ->
  ok ((LReg, Rd) :: H) O M k -> ok ((LReg, Rd) :: H) O M (flat_map k_pop_one l ++ k).
Proof.
  intros l H O M k Hl; induction Hl as [|[i [[b1 b2] f]] l [H1 H2] Hl IH]; intros Hk; [exact Hk|]. cbn [fst snd] in *.
  cbn [flat_map]. rewrite <- app_assoc. unfold k_pop_one at 1. cbn [app ok may]. split; [guarded|].
  rewrite <- app_assoc. apply ok_get. rewrite <- app_assoc. apply ok_method; [left; reflexivity|exact H1|].
  rewrite <- app_assoc. apply ok_method; [left; reflexivity|exact H2|]. rewrite <- app_assoc.
  destruct f; cbn [app ok may]; rewrite rem_head; [split; [guarded|]|]; exact (IH Hk).
Qed.

Lemma code_safe : forall p, code p -> safe always p.
Proof.
  apply (code_mind (fun p _ => safe always p) (fun i b _ => safe (within i) b) (fun i l _ => Forall (safe (within i)) l)
    (fun l _ => Forall (fun q => safe (within (fst q)) (fst (fst (snd q))) /\ safe (within (fst q)) (snd (fst (snd q)))) l)).
  - intros H O M k _ Hk. exact Hk.
  - intros p q _ IHp _ IHq H O M k _ Hk. rewrite <- app_assoc. apply IHp; [exact Logic.I|]. apply IHq; [exact Logic.I|exact Hk].
  - simple.
  - simple.
  - simple.
  - exact ok_none.
  - intros i bodies _ IH H O M k _ Hk. unfold k_with. rewrite <- !app_assoc. apply ok_get. apply ok_methods; [left; reflexivity|exact IH|].
    cbn [app ok]. rewrite rem_head. exact Hk.
  - intros i b _ IH H O M k _ Hk. unfold k_push. cbn [app ok]. rewrite <- app_assoc. apply ok_method; [left; reflexivity|exact IH|].
    cbn [app ok]. rewrite rem_head. exact Hk.
  - simple.
  - intros i H O M k _ Hk. apply ok_sect; [|exact Hk]. intros k' Hk'. rewrite <- app_assoc. apply ok_make. rewrite <- app_assoc.
    apply ok_method; [left; reflexivity|apply within_use|]. cbn [app ok]. rewrite rem_head. exact Hk'.
  - intros i init bodies _ IHi _ IHb H O M k _ Hk. apply ok_sect; [|exact Hk]. intros k' Hk'. rewrite <- app_assoc. apply ok_make.
    cbn [app ok may]. repeat (split; [guarded|]). rewrite <- app_assoc. apply IHi; [exact Logic.I|]. rewrite <- app_assoc.
    apply ok_methods; [left; reflexivity|exact IHb|]. cbn [app ok]. rewrite rem_head. exact Hk'.
  - simple.
  - simple.
  - intros i. simple.
  - intros l H O M k _ Hk. apply ok_sect; [|exact Hk]. intros k' Hk'. cbn [app ok may]. split; [guarded|].
    induction l as [|i l IH]; [exact Hk'|]. cbn [flat_map]. rewrite <- app_assoc. cbn [app ok may]. split; [guarded|].
    rewrite <- app_assoc. apply ok_method; [left; reflexivity|apply within_use|]. cbn [app ok]. rewrite rem_head. exact IH.
  - intros l n _ IH H O M k _ Hk. apply ok_sect; [|exact Hk]. intros k' Hk'. cbn [app ok may]. split; [guarded|].
    rewrite <- app_assoc. apply ok_pops; [exact IH|]. induction n as [|n IHn]; [exact Hk'|]. cbn [repeat flat_map].
    rewrite <- app_assoc. cbn [app]. cbn [ok may]. split; [guarded|]. apply ok_none; [exact Logic.I|exact IHn].
  - intros H O M k _ Hk. cbn [app ok may]. split; [left; exact frH|exact Hk].
  - intros i H O M k _ Hk. exact Hk.
  - intros i w b _ IH H O M k HW Hk. cbn [app ok may]. split; [right; right; exact HW|exact (IH _ _ _ _ HW Hk)].
  - intros i b _ IH H O M k HW Hk. rewrite <- app_assoc. apply ok_sect; [|exact (IH _ _ _ _ HW Hk)].
    intros k' Hk'. cbn [app ok may]. split; [guarded|exact Hk'].
  - intros i b _ IH H O M k HW Hk. rewrite <- app_assoc. apply ok_sect; [|exact (IH _ _ _ _ HW Hk)].
    intros k' Hk'. cbn [app ok may]. split; [guarded|exact Hk'].
  - intros i b _ IH H O M k HW Hk. cbn [app ok may]. split; [left; exact frH|exact (IH _ _ _ _ HW Hk)].
  - intros i p b _ IHp _ IH H O M k HW Hk. rewrite <- app_assoc. apply IHp; [exact Logic.I|exact (IH _ _ _ _ HW Hk)].
  - intros i. constructor.
  - intros i b l _ IHb _ IHl. constructor; assumption.
  - constructor.
  - intros i b1 b2 f l _ IH1 _ IH2 _ IHl. constructor; [split; assumption|assumption].
Qed.

Lemma inv_rstart : forall progs, fin = [] -> Forall code progs -> inv (rstart progs).
Proof.
  intros progs Ef HP.
  assert (T : forall a t, nth_error (rs_ts (rstart progs)) a = Some t -> exists p, In p progs /\ t = mk_rthread [] [] [] p).
  { intros a t Ha. cbn in Ha. apply nth_error_In in Ha. apply in_map_iff in Ha. destruct Ha as [p [<- Hp]]. eauto. }
  assert (NO : forall i, ~ owned i (rs_slot (rstart progs)) (rs_ts (rstart progs))).
  { intros i [[]|[t [Ht Hi]]]. apply In_nth_error in Ht. destruct Ht as [a Ha]. destruct (T _ _ Ha) as [p [_ ->]]. exact Hi. }
  split; [|split; [|split; [|split]]].
  - intros a b ta tb l m _ Ha _ Q. destruct (T _ _ Ha) as [p [_ ->]]. destruct Q.
  - intros a t Ha. destruct (T _ _ Ha) as [p [Hp ->]]. cbn [rt_held rt_own rt_mine rt_prog].
    rewrite <- (app_nil_r p). rewrite Forall_forall in HP. exact (code_safe p (HP _ Hp) [] [] [] [] Logic.I (conj eq_refl (conj (eq_sym Ef) eq_refl))).
  - constructor.
    + intros a t Ha. destruct (T _ _ Ha) as [p [_ ->]]. constructor.
    + intros a b ta tb i _ Ha _ Q. destruct (T _ _ Ha) as [p [_ ->]]. destruct Q.
    + intros a t i Ha Q. destruct (T _ _ Ha) as [p [_ ->]]. destruct Q.
    + intros a t i Ha Q. destruct (T _ _ Ha) as [p [_ ->]]. destruct Q.
    + intros i O. destruct (NO i O).
    + intros i [].
  - intros i [].
  - constructor.
Qed.

Lemma shards_safe : forall sh, fr LcRand = true -> forall l, shards_ok sh l -> safe (fun _ O => incl sh O) (k_shards l).
Proof.
  intros sh frR.
  apply (shards_mind sh (fun l _ => safe (fun _ O => incl sh O) (k_shards l))
    (fun i b _ => safe (fun H O => incl sh O /\ (In i sh -> In (LAg i, Wr) H)) b \/ ~ In i sh)).
  - intros H O M k _ Hk. exact Hk.
  - intros i b l Hi _ [IHb|N] _ IHl H O M k Hc Hk; [|contradiction]. cbn [k_shards flat_map fst snd]. rewrite <- app_assoc.
    apply ok_sect; [|exact (IHl _ _ _ _ Hc Hk)]. intros k' Hk'. apply IHb; [|exact Hk']. split; [exact Hc|intros _; left; reflexivity].
  - intros i. left. intros H O M k _ Hk. exact Hk.
  - intros i b _ [IH|N]; [left|right; exact N]. intros H O M k Hc Hk. cbn [app ok may]. split; [left; exact frR|exact (IH _ _ _ _ Hc Hk)].
  - intros i b _ [IH|N]; [left|right; exact N]. intros H O M k Hc Hk. cbn [app ok may]. split; [left; exact frH|exact (IH _ _ _ _ Hc Hk)].
  - intros i w b _ [IH|N]; [|right; exact N]. destruct (in_dec Nat.eq_dec i sh) as [Hi|Hi]; [left|right; exact Hi].
    intros H O M k Hc Hk. cbn [app ok may]. split; [right; right; split; [exact (proj1 Hc _ Hi)|exact (proj2 Hc Hi)]|exact (IH _ _ _ _ Hc Hk)].
  - intros i l b _ IHl _ [IH|N]; [left|right; exact N]. intros H O M k Hc Hk. rewrite <- app_assoc.
    apply IHl; [exact (proj1 Hc)|exact (IH _ _ _ _ Hc Hk)].
Qed.

Lemma inv_sstart : forall sh progs, fin = sh -> fr LcRand = true -> Forall (shards_ok sh) progs -> inv (sstart sh progs).
Proof.
  intros sh progs Ef frR HP.
  assert (T : forall a t, nth_error (rs_ts (sstart sh progs)) a = Some t -> exists l, In l progs /\ t = mk_rthread [] sh [] (k_shards l)).
  { intros a t Ha. cbn in Ha. apply nth_error_In in Ha. apply in_map_iff in Ha. destruct Ha as [p [<- Hp]]. eauto. }
  split; [|split; [|split; [|split]]].
  - intros a b ta tb l m _ Ha _ Q. destruct (T _ _ Ha) as [p [_ ->]]. destruct Q.
  - intros a t Ha. destruct (T _ _ Ha) as [l [Hl ->]]. cbn [rt_held rt_own rt_mine rt_prog].
    rewrite <- (app_nil_r (k_shards l)). rewrite Forall_forall in HP.
    exact (shards_safe sh frR l (HP _ Hl) [] sh [] [] (incl_refl sh) (conj eq_refl (conj (eq_sym Ef) eq_refl))).
  - constructor.
    + intros a t Ha. destruct (T _ _ Ha) as [p [_ ->]]. constructor.
    + intros a b ta tb i _ Ha _ Q. destruct (T _ _ Ha) as [p [_ ->]]. destruct Q.
    + intros a t i Ha Q. destruct (T _ _ Ha) as [p [_ ->]]. destruct Q.
    + intros a t i Ha Q. destruct (T _ _ Ha) as [p [_ ->]]. destruct Q.
    + intros i [Hi|[t [Ht Hi]]]; [exact Hi|]. apply In_nth_error in Ht. destruct Ht as [a Ha]. destruct (T _ _ Ha) as [p [_ ->]]. exact Hi.
    + intros i [].
  - intros i Hi. left. left. exact Hi.
  - constructor.
Qed.
End Discipline.
