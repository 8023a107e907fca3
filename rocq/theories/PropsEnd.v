(** C80: a wrtstat object is destroyed while other threads use points of its meters. *)
From Coq Require Import ZArith List Bool Lia Arith Ascii Permutation.
From Verif Require Import Base SortFacts ModelTypes ModelReducer SpecReducer ModelSeparator SpecSeparator ModelAggregator SpecAggregator
  ModelRegistry SpecRegistry RegFinal ModelConc SpecConc ConcLin PropsReducer PropsSeparator PropsAggregator PropsRegistry PropsConc ModelEnd.
Import ListNotations.
Local Open Scope Z_scope.

(** Until the members are destroyed everything is as in C60-C65, the destructor being a thread that calls force_pop_all. *)
Definition as_call (q : nat * eop) (r : nat * kop) : Prop :=
  fst q = fst r /\ match snd q with EK k => snd r = k | EDestroy clk => snd r = KOp (RgPopAll true clk) \/ snd r = KOp (RgGetName 0) end.
Definition before_gone (p : phase) : Prop := p <> EGone.
Lemma bind_ok {A B} (x : outcome A) (k : A -> outcome B) y : bind x k = Ok y -> exists a, x = Ok a /\ k a = Ok y.
Proof. destruct x; cbn; intros; try discriminate. eauto. Qed.
Lemma gone_step ne t op f ev f1 : e_step ne t op f = Ok (ev, f1) -> e_phase f = EGone -> e_phase f1 = EGone.
Proof.
  intros E G. unfold e_step in E. rewrite G in E. destruct (nth_error (k_thr (e_conc f)) t) as [p|]; [|injection E as <- <-; exact G].
  assert (L : (' (ev, c1) <- e_late ne t p (e_conc f) ;; Ok (ev, mk_fin c1 EGone)) = Ok (ev, f1) -> e_phase f1 = EGone).
  { intros L. apply bind_ok in L. destruct L as ([ev1 c1] & _ & L). injection L as <- <-. reflexivity. }
  destruct p; try exact (L E). destruct op as [k|]; [|discriminate]. destruct (is_report k); [|discriminate].
  apply bind_ok in E. destruct E as ([ev1 c1] & _ & E). injection E as <- <-. reflexivity.
Qed.
Lemma gone_stays ne : forall sched f evs f', e_run ne f sched = Ok (evs, f') -> e_phase f = EGone -> e_phase f' = EGone.
Proof.
  induction sched as [|[t op] sched IH]; intros f evs f' E G; cbn [e_run] in E; [injection E as <- <-; exact G|].
  apply bind_ok in E. destruct E as ([ev f1] & S & E). apply bind_ok in E. destruct E as ([evs0 f2] & R & E). injection E as <- <-. eapply IH; eauto using gone_step.
Qed.
Theorem C80_before : forall ne o threads sched evs f, e_run ne (e_new o threads) sched = Ok (evs, f) -> e_phase f <> EGone ->
  exists calls, Forall2 as_call sched calls /\ k_run ne (k_new o threads) calls = Ok (evs, e_conc f).
Proof.
  intros ne o threads. change (k_new o threads) with (e_conc (e_new o threads)). generalize (e_new o threads) as f0. intros f0 sched. revert f0.
  induction sched as [|[t op] sched IH]; intros f0 evs f E N; cbn [e_run] in E; [injection E as <- <-; exists []; split; [constructor|reflexivity]|].
  destruct (e_step ne t op f0) as [[ev f1]| |] eqn:ES; cbn [bind] in E; try discriminate E.
  destruct (e_run ne f1 sched) as [[evs0 f2]| |] eqn:E2; cbn [bind] in E; try discriminate E. injection E as <- <-.
  destruct (IH f1 evs0 f2 E2 N) as (calls & F & R).
  assert (G1 : e_phase f1 <> EGone) by (intros G; apply N; eapply gone_stays; eauto).
  assert (H : exists k, as_call (t, op) (t, k) /\ k_step ne t k (e_conc f0) = Ok (ev, e_conc f1)).
  { unfold e_step in ES. destruct (e_phase f0) as [|t'|t'|] eqn:P.
    - destruct op as [k|clk].
      + destruct (k_step ne t k (e_conc f0)) as [[ev1 c1]| |] eqn:K; cbn [bind] in ES; try discriminate ES. injection ES as <- <-. exists k. repeat split; auto.
      + destruct (idle t (e_conc f0)).
        * destruct (k_step ne t (KOp (RgPopAll true clk)) (e_conc f0)) as [[ev1 c1]| |] eqn:K; cbn [bind] in ES; try discriminate ES. injection ES as <- <-. eexists. split; [split; [reflexivity|left; reflexivity]|exact K].
        * destruct (k_step ne t (KOp (RgGetName 0)) (e_conc f0)) as [[ev1 c1]| |] eqn:K; cbn [bind] in ES; try discriminate ES. injection ES as <- <-. eexists. split; [split; [reflexivity|right; reflexivity]|exact K].
    - destruct op as [k|clk].
      + destruct (k_step ne t k (e_conc f0)) as [[ev1 c1]| |] eqn:K; cbn [bind] in ES; try discriminate ES. injection ES as <- <-. exists k. repeat split; auto.
      + destruct (idle t (e_conc f0)); [discriminate ES|].
        destruct (k_step ne t (KOp (RgGetName 0)) (e_conc f0)) as [[ev1 c1]| |] eqn:K; cbn [bind] in ES; try discriminate ES. injection ES as <- <-. eexists. split; [split; [reflexivity|right; reflexivity]|exact K].
    - destruct (t =? t')%nat; [injection ES as <- <-; destruct (G1 eq_refl)|]. destruct op as [k|clk].
      + destruct (k_step ne t k (e_conc f0)) as [[ev1 c1]| |] eqn:K; cbn [bind] in ES; try discriminate ES. injection ES as <- <-. exists k. repeat split; auto.
      + destruct (idle t (e_conc f0)); [discriminate ES|].
        destruct (k_step ne t (KOp (RgGetName 0)) (e_conc f0)) as [[ev1 c1]| |] eqn:K; cbn [bind] in ES; try discriminate ES. injection ES as <- <-. eexists. split; [split; [reflexivity|right; reflexivity]|exact K].
    - destruct (G1 (gone_step ne t op f0 ev f1 ltac:(unfold e_step; rewrite P; exact ES) P)). }
  destruct H as (k & A & K). exists ((t, k) :: calls). split; [constructor; assumption|]. cbn [k_run]. rewrite K. cbn [bind]. rewrite R. reflexivity.
Qed.
Print Assumptions C80_before.

(** Nobody is inside a call on the aggregator object [s]. *)
Definition released (s : nat) (c : conc) : Prop := Forall (fun p => holds s p = false) (k_thr c).
(** Every thread only reports: pushes through pushers, and meters. *)
Definition reports_only (sched : list (nat * eop)) : Prop :=
  Forall (fun q => exists k, snd q = EK k /\ match k with KOp (RgPush _ _ _ _) | KMeter _ _ _ _ _ => True | _ => False end) sched.
(** What a report does that comes too late: it starts, finds the aggregator gone and returns with nothing delivered. *)
Definition in_vain (e : event) : Prop :=
  match e with
  | EInv _ _ | ELin _ (ADo (RgPush _ _ _ _)) (RRecs []) | ERet _ (RRecs []) | ERet _ (RNamed []) => True
  | _ => False
  end.

Lemma call_gone ne s op c x : rg_arr (k_reg c) = [] -> k_call ne s op c = Ok x -> rg_arr (k_reg (snd x)) = [] /\ k_thr (snd x) = k_thr c.
Proof.
  intros A E. unfold k_call in E. rewrite A in E. cbn [find_obj] in E. destruct (m_find Nat.eqb s (k_dead c)); [|discriminate].
  apply bind_ok in E. destruct E as ([o g'] & _ & E). injection E as <-. split; [exact A|reflexivity].
Qed.
(** A late step: the thread has let go of its object or runs the handler, still inside the call. *)
Lemma late_gone ne t p c ev c1 : rg_arr (k_reg c) = [] -> e_late ne t p c = Ok (ev, c1) -> nth_error (k_thr c) t = Some p ->
  rg_arr (k_reg c1) = [] /\ exists p', k_thr c1 = set_nth t p' (k_thr c) /\ (forall s, holds s p' = true -> holds s p = true) /\
    (forall t' s g x, In (EObj t' s g x) ev -> holds s p = true).
Proof.
  intros A E T.
  assert (Z : set_nth t p (k_thr c) = k_thr c).
  { clear - T. revert t T. induction (k_thr c) as [|q l IH]; intros [|t] T; try discriminate; cbn; [injection T as ->; reflexivity|f_equal; auto]. }
  assert (Q : forall ev c1, k_next ne t p c = Ok (ev, c1) -> match p with PGot _ _ _ | PLocked _ _ _ _ _ | PLeave _ _ _ => True | _ => False end ->
    rg_arr (k_reg c1) = [] /\ exists p', k_thr c1 = set_nth t p' (k_thr c) /\ (forall s, holds s p' = true -> holds s p = true) /\ (forall t' s g x, In (EObj t' s g x) ev -> holds s p = true)).
  { intros ev2 c2 N K. destruct p as [|id s op| | |pu x a1 a2 dest| |b s y| | |]; try contradiction; cbn [k_next] in N; unfold guard in N.
    - destruct (can_call s c).
      + apply bind_ok in N. destruct N as ([[o reg] k1] & N & N2). apply call_gone in N; [|exact A]. cbn in N. destruct N as [A1 T1]. injection N2 as <- <-. cbn. split; [exact A1|].
        eexists. rewrite T1. split; [reflexivity|]. split; [intros s0 H; exact H|]. intros t' s0 g x I. destruct reg; cbn in I; repeat destruct I as [I|I]; try discriminate; try contradiction; injection I as <- <- <- <-; apply Nat.eqb_refl.
      + injection N as <- <-. split; [exact A|]. exists (PGot id s op). rewrite Z. split; [reflexivity|]. split; [auto|]. intros t' s0 g x [].
    - destruct (can_call (rp_obj pu) c).
      + apply bind_ok in N. destruct N as ([[o reg] k1] & N & N2). apply call_gone in N; [|exact A]. cbn in N. destruct N as [A1 T1].
        set (ev0 := lin reg t (rp_obj pu) (GoPush x (pu_handler (rp_pu pu)) a1 a2) o (if cleared (rp_obj pu) c then AHeld pu x a1 a2 else ADo (RgPush pu x a1 a2)) (RRecs (out_handler o))) in *.
        assert (IE : forall t' s0 g y, In (EObj t' s0 g y) ev0 -> holds s0 (PLocked pu x a1 a2 dest) = true).
        { intros t' s0 g y I. unfold ev0 in I. destruct reg; cbn in I; repeat destruct I as [I|I]; try discriminate; try contradiction; injection I as <- <- <- <-; apply Nat.eqb_refl. }
        injection N2 as <- <-. cbn [with_pc k_thr k_reg]. split; [exact A1|]. eexists. rewrite T1. split; [reflexivity|]. split; [|exact IE].
        intros s0 H. destruct dest as [id|]; [destruct (out_handler o)|]; exact H.
      + injection N as <- <-. split; [exact A|]. exists (PLocked pu x a1 a2 dest). rewrite Z. split; [reflexivity|]. split; [auto|]. intros t' s0 g y [].
    - injection N as <- <-. split; [exact A|]. exists PIdle. split; [reflexivity|]. split; [intros s0 H; discriminate|]. intros t' s0 g x I. repeat destruct I as [I|I]; try discriminate; contradiction. }
  unfold e_late, guard in E. destruct p as [|id s op| | |[s pp] x a1 a2 dest| |b s y| | |]; try discriminate.
  - destruct (can_call s c); [|injection E as <- <-; split; [exact A|]; exists (PGot id s op); rewrite Z; repeat split; auto; intros ? ? ? ? []].
    apply bind_ok in E. destruct E as ([ev1 c2] & N & E). destruct (m_find Nat.eqb s (k_dead c)); [|discriminate]. destruct (m_find Nat.eqb s (k_dead c2)); [|discriminate].
    destruct (uses_pool _ _ _); [discriminate|]. injection E as <- <-. apply (Q _ _ N Logic.I).
  - destruct (can_call s c); [|injection E as <- <-; split; [exact A|]; eexists; rewrite Z; repeat split; auto; intros ? ? ? ? []].
    apply bind_ok in E. destruct E as ([ev1 c2] & N & E). destruct (m_find Nat.eqb s (k_dead c)); [|discriminate]. destruct (m_find Nat.eqb s (k_dead c2)); [|discriminate].
    destruct (uses_pool _ _ _); [discriminate|]. injection E as <- <-. apply (Q _ _ N Logic.I).
  - apply (Q _ _ E Logic.I).
Qed.
Lemma set_nth_Forall {A} (P : A -> Prop) x : forall (l : list A) i, Forall P l -> P x -> Forall P (set_nth i x l).
Proof. induction l as [|y l IH]; intros [|i] F X; cbn; auto; inversion F; constructor; auto. Qed.
Lemma nth_Forall {A} (P : A -> Prop) (l : list A) i x : Forall P l -> nth_error l i = Some x -> P x.
Proof. intros F N. rewrite Forall_forall in F. apply F. eapply nth_error_In; eauto. Qed.
Lemma released_exists s c : released s c -> existsb (holds s) (k_thr c) = false.
Proof. unfold released. induction 1 as [|p l H F IH]; [reflexivity|]. cbn. rewrite H. exact IH. Qed.
(** An object nobody holds stays released once the members are gone. *)
Lemma step_released ne t op f ev f1 : e_phase f = EGone -> rg_arr (k_reg (e_conc f)) = [] -> e_step ne t op f = Ok (ev, f1) ->
  rg_arr (k_reg (e_conc f1)) = [] /\ forall s, released s (e_conc f) -> released s (e_conc f1) /\ forall t' g x, ~ In (EObj t' s g x) ev.
Proof.
  intros G A E. unfold e_step in E. rewrite G in E. destruct (nth_error (k_thr (e_conc f)) t) as [p|] eqn:T; [|injection E as <- <-; split; [exact A|]; intros s R; split; [exact R|intros t' g x []]].
  assert (L : (' (ev, c1) <- e_late ne t p (e_conc f) ;; Ok (ev, mk_fin c1 EGone)) = Ok (ev, f1) ->
    rg_arr (k_reg (e_conc f1)) = [] /\ forall s, released s (e_conc f) -> released s (e_conc f1) /\ forall t' g x, ~ In (EObj t' s g x) ev).
  { intros L. apply bind_ok in L. destruct L as ([ev1 c1] & L & EQ). injection EQ as <- <-. apply late_gone in L; [|exact A|exact T].
    destruct L as (A1 & p' & TH & H1 & H2). split; [exact A1|]. intros s R. pose proof (nth_Forall _ _ _ _ R T) as HP. cbn in HP. split.
    - unfold released. cbn [e_conc]. rewrite TH. apply set_nth_Forall; [exact R|]. destruct (holds s p') eqn:Q; [|reflexivity]. apply H1 in Q. congruence.
    - intros t' g x I. apply H2 in I. congruence. }
  destruct p; try exact (L E). clear L. destruct op as [k|]; [|discriminate]. destruct (is_report k) eqn:K; [|discriminate].
  apply bind_ok in E. destruct E as ([ev1 c1] & S & EQ). injection EQ as <- <-. cbn [e_conc].
  assert (H : forall pu x a1 a2 dest kk, k_lock t kk pu x a1 a2 dest (e_conc f) = (ev1, c1) ->
    rg_arr (k_reg c1) = [] /\ forall s, released s (e_conc f) -> released s c1 /\ forall t' g x, ~ In (EObj t' s g x) ev1).
  { intros pu x a1 a2 dest kk KL. unfold k_lock, k_find in KL. rewrite A in KL. cbn [find_obj] in KL.
    destruct (existsb (holds (rp_obj pu)) (k_thr (e_conc f))) eqn:EX; [destruct (m_find Nat.eqb (rp_obj pu) (k_dead (e_conc f))) as [g|]; [destruct (pu_id (rp_pu pu) && token (rp_obj pu) g (e_conc f))|]|]; injection KL as <- <-.
    - split; [exact A|]. intros s R. split.
      + unfold released. cbn [with_pc k_thr]. apply set_nth_Forall; [exact R|]. cbn [holds]. destruct (rp_obj pu =? s)%nat eqn:Q; [|reflexivity]. apply Nat.eqb_eq in Q. subst s. apply released_exists in R. congruence.
      + intros t' g' y [I|[]]. discriminate.
    - split; [exact A|]. intros s R. split; [exact R|]. intros t' g' y I. cbn in I. repeat destruct I as [I|I]; try discriminate; contradiction.
    - split; [exact A|]. intros s R. split; [exact R|]. intros t' g' y I. cbn in I. repeat destruct I as [I|I]; try discriminate; contradiction.
    - split; [exact A|]. intros s R. split; [exact R|]. intros t' g' y I. cbn in I. repeat destruct I as [I|I]; try discriminate; contradiction. }
  destruct k as [op|pu id x a1 a2]; [destruct op; try discriminate K|]; cbn [k_start] in S; injection S as S; eapply H; exact S.
Qed.
Lemma step_drop ne t op f ev f1 : e_phase f <> EGone -> e_phase f1 = EGone -> e_step ne t op f = Ok (ev, f1) -> rg_arr (k_reg (e_conc f1)) = [].
Proof.
  intros G G1 E. unfold e_step in E. destruct (e_phase f) as [|t'|t'|]; [| | |destruct (G eq_refl)].
  - destruct op as [k|clk]; [|destruct (idle t (e_conc f))]; apply bind_ok in E; destruct E as ([ev1 c1] & _ & E); injection E as <- <-; cbn in G1; try discriminate; destruct (idle t c1); discriminate.
  - destruct op as [k|clk]; [|destruct (idle t (e_conc f)); [discriminate|]]; apply bind_ok in E; destruct E as ([ev1 c1] & _ & E); injection E as <- <-; cbn in G1; destruct (idle t' c1); discriminate.
  - destruct (t =? t')%nat; [injection E as <- <-; reflexivity|].
    destruct op as [k|clk]; [|destruct (idle t (e_conc f)); [discriminate|]]; apply bind_ok in E; destruct E as ([ev1 c1] & _ & E); injection E as <- <-; cbn in G1; discriminate.
Qed.
Lemma gone_arr ne : forall sched f evs f', e_run ne f sched = Ok (evs, f') -> (e_phase f = EGone -> rg_arr (k_reg (e_conc f)) = []) -> e_phase f' = EGone -> rg_arr (k_reg (e_conc f')) = [].
Proof.
  induction sched as [|[t op] sched IH]; intros f evs f' E A G; cbn [e_run] in E; [injection E as <- <-; auto|].
  apply bind_ok in E. destruct E as ([ev f1] & S & E). apply bind_ok in E. destruct E as ([evs0 f2] & R & E). injection E as <- <-. eapply IH; [exact R| |exact G]. intros G1.
  destruct (e_phase f) eqn:P; try (eapply step_drop; [|exact G1|exact S]; rewrite P; discriminate). exact (proj1 (step_released ne t op f ev f1 P (A eq_refl) S)).
Qed.

(** Once the wrtstat object is gone, an aggregator no thread was using stays as it is: no report reaches it any more. *)
Theorem C80_released_partial : forall ne o threads s1 evs1 f, e_run ne (e_new o threads) s1 = Ok (evs1, f) -> e_phase f = EGone ->
  forall s s2 evs2 f2, released s (e_conc f) -> e_run ne f s2 = Ok (evs2, f2) -> released s (e_conc f2) /\ forall t g x, ~ In (EObj t s g x) evs2.
Proof.
  intros ne o threads s1 evs1 f E G s s2. assert (A : rg_arr (k_reg (e_conc f)) = []) by (eapply gone_arr; [exact E|discriminate|exact G]). clear E. revert f G A.
  induction s2 as [|[t op] s2 IH]; intros f G A evs2 f2 R E; cbn [e_run] in E; [injection E as <- <-; split; [exact R|intros t g x []]|].
  apply bind_ok in E. destruct E as ([ev f1] & S & E). apply bind_ok in E. destruct E as ([evs0 f3] & Q & E). injection E as <- <-.
  destruct (step_released ne t op f ev f1 G A S) as [A1 R1]. destruct (R1 s R) as [R2 N1]. destruct (IH f1 (gone_step ne t op f ev f1 S G) A1 evs0 f3 R2 Q) as [R3 N2].
  split; [exact R3|]. intros t' g x I. apply in_app_or in I. destruct I as [I|I]; [exact (N1 _ _ _ I)|exact (N2 _ _ _ I)].
Qed.
Print Assumptions C80_released_partial.
(** If no thread was inside a report when the members were destroyed, later reports do nothing and nothing faults, for ever. *)
Theorem C80_quiet_end_partial : forall ne o threads s1 evs1 f, e_run ne (e_new o threads) s1 = Ok (evs1, f) -> e_phase f = EGone ->
  Forall (fun p => p = PIdle) (k_thr (e_conc f)) -> forall s2, reports_only s2 -> exists evs2, e_run ne f s2 = Ok (evs2, f) /\ Forall in_vain evs2.
Proof.
  intros ne o threads s1 evs1 f E G Q s2 O. assert (A : rg_arr (k_reg (e_conc f)) = []) by (eapply gone_arr; [exact E|discriminate|exact G]). clear E.
  induction O as [|[t op] s2 (k & KE & K) O (evs & IH & V)]; [exists []; split; [reflexivity|constructor]|]. cbn [snd] in KE. subst op. cbn [e_run].
  assert (H : exists ev, e_step ne t (EK k) f = Ok (ev, f) /\ Forall in_vain ev).
  { unfold e_step. rewrite G. destruct (nth_error (k_thr (e_conc f)) t) as [p|] eqn:T; [|exists []; split; [reflexivity|constructor]].
    pose proof (nth_Forall _ _ _ _ Q T) as ->. replace (is_report k) with true by (destruct k as [[]|]; try contradiction; reflexivity).
    assert (X : forall s, existsb (holds s) (k_thr (e_conc f)) = false) by (intros s; apply released_exists; eapply Forall_impl; [|exact Q]; intros p ->; reflexivity).
    assert (FE : mk_fin (e_conc f) EGone = f) by (destruct f; cbn in *; congruence).
    destruct k as [op|pu id x a1 a2]; [destruct op; try contradiction K|]; cbn [k_start]; unfold k_lock, k_find; rewrite A; cbn [find_obj]; rewrite X; cbn [bind]; rewrite FE; eexists; (split; [reflexivity|repeat constructor]). }
  destruct H as (ev & H & V1). rewrite H. cbn [bind]. rewrite IH. cbn [bind]. eexists. split; [reflexivity|]. apply Forall_app; auto.
Qed.
Print Assumptions C80_quiet_end_partial.

(** ** What can go wrong *)
Definition ex (t : nat) (k : rgop) : nat * eop := (t, EK (KOp k)).
Definition eg (t : nat) : nat * eop := (t, EK (KOp (RgGetName 0))).
Definition e_start : list (nat * eop) := [ex 0 (RgCreate rx_e na 108); ex 0 (RgPusher 8 true); ex 1 (RgPush kx_pa (SmScalar 103 7 1) 0 0); eg 1; eg 1].
Definition e_kill : list (nat * eop) := [(0%nat, EDestroy (fun _ => 105)); eg 0; eg 0; eg 0; eg 0; eg 0].
Definition e_last (f : fin) : option agg := m_find Nat.eqb 0%nat (k_dead (e_conc f)).

(** A report that has found its aggregator alive when the destructor starts stores its value in a buffer of the destroyed pool: the
    flushed aggregator has no buffer, and this report takes one. *)
Theorem C80_pool_refuted : exists evs f, let sched := e_start ++ (1%nat, EK (KOp (RgPush kx_pa (SmScalar 104 8 1) 0 0))) :: e_kill ++ [eg 0] in
  e_run ne_rev (e_new rx_o 2) sched = Ok (evs, f) /\ e_phase f = EGone /\
  nth_error (k_thr (e_conc f)) 1 = Some (PLocked kx_pa (SmScalar 104 8 1) 0 0 None) /\
  (exists g o g', e_last f = Some g /\ rows g = 0%nat /\ g_call ne_rev (GoPush (SmScalar 104 8 1) true 0 0) g = Ok (o, g') /\ rows g' = 1%nat) /\
  e_run ne_rev (e_new rx_o 2) (sched ++ [eg 1]) = Ub.
Proof. eexists _, _. cbv zeta. split; [vm_compute; reflexivity|]. split; [reflexivity|]. split; [reflexivity|]. split; [|vm_compute; reflexivity]. eexists _, _, _. split; [vm_compute; reflexivity|]. split; [vm_compute; reflexivity|]. split; vm_compute; reflexivity. Qed.
Print Assumptions C80_pool_refuted.
(** A handler made from an id is still running when the wrtstat object it uses disappears. *)
Theorem C80_handler_refuted : exists evs f, let sched := e_start ++ e_kill ++
    [(1%nat, EK (KMeter kx_pa 8 (SmScalar 111 8 1) 0 0)); eg 1; eg 1; (1%nat, EK (KMeter kx_pa 8 (SmScalar 125 9 1) 0 0)); eg 1; eg 0] in
  e_run ne_rev (e_new rx_o 2) sched = Ok (evs, f) /\ e_phase f = EGone /\
  (exists recs, recs <> [] /\ nth_error (k_thr (e_conc f)) 1 = Some (PDeliver 0 8 recs)) /\
  e_run ne_rev (e_new rx_o 2) (sched ++ [eg 1]) = Ub.
Proof. eexists _, _. cbv zeta. split; [vm_compute; reflexivity|]. split; [reflexivity|]. split; [|vm_compute; reflexivity]. eexists. split; [|reflexivity]. discriminate. Qed.
Print Assumptions C80_handler_refuted.
(** A report accepted after the flush and finished before the members are destroyed is never handed over. *)
Theorem C80_lost_refuted : exists evs f, e_run ne_rev (e_new rx_o 2) (e_start ++ e_kill ++ [ex 1 (RgPush kx_pa (SmScalar 111 8 1) 0 0); eg 1; eg 1; eg 0]) = Ok (evs, f) /\
  e_phase f = EGone /\ Forall (fun p => p = PIdle) (k_thr (e_conc f)) /\
  map (fun q => out_bool (snd q)) (filter (fun q => match fst q with GoPush _ _ _ _ => true | _ => false end) (calls 0 evs)) = [Some true; Some true] /\
  map shown (returns 0 evs ++ returns 1 evs) = [[]; []; [(na, 100, 1)]; []; []].
Proof. eexists _, _. split; [vm_compute; reflexivity|]. split; [reflexivity|]. split; [repeat constructor|]. split; vm_compute; reflexivity. Qed.
Print Assumptions C80_lost_refuted.

(** Reports before, during and after the destruction that do not overlap its last step. *)
Definition e_calm : list (nat * eop) := e_start ++ (1%nat, EK (KOp (RgPush kx_pa (SmScalar 104 8 1) 0 0))) :: e_kill ++ [eg 1; eg 1; eg 0].
Example C80_witness : exists evs f, e_run ne_rev (e_new rx_o 2) e_calm = Ok (evs, f) /\ e_phase f = EGone /\ Forall (fun p => p = PIdle) (k_thr (e_conc f)) /\
  released 0 (e_conc f) /\ e_last f <> None /\ map shown (returns 0 evs ++ returns 1 evs) = [[]; []; [(na, 100, 1)]; []; []] /\
  reports_only [(1%nat, EK (KMeter kx_pa 8 (SmScalar 111 8 1) 0 0)); (0%nat, EK (KOp (RgPush kx_pa (SmScalar 112 8 1) 0 0)))] /\
  exists evs2, e_run ne_rev (e_new rx_o 2) (firstn 12 e_calm) = Ok evs2 /\ e_phase (snd evs2) = EHanding 0.
Proof.
  eexists _, _. split; [vm_compute; reflexivity|]. split; [reflexivity|]. split; [repeat constructor|]. split; [repeat constructor|]. split; [discriminate|]. split; [vm_compute; reflexivity|].
  split; [repeat constructor; eexists; (split; [reflexivity|exact I])|]. eexists. split; vm_compute; reflexivity.
Qed.
