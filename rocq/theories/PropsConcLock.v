(** C62: what can happen while pop_all or enable is at work on a shared registry. *)
From Coq Require Import ZArith List Bool Lia Arith.
From Verif Require Import Base ModelTypes ModelReducer SpecReducer ModelSeparator SpecSeparator ModelAggregator SpecAggregator
  ModelRegistry SpecRegistry RegProofs ModelConc SpecConc ConcProofs PropsRegistry PropsConc.
Import ListNotations.
Local Open Scope Z_scope.

(** * Specification *)
Definition who (e : event) : nat := match e with EInv t _ | ELin t _ _ | ELate t _ _ | EObj t _ _ _ | EGiven t _ | ERet t _ => t end.
(** The call thread [t] is in after [evs]. *)
Definition in_call (t : nat) (evs : list event) : option kop :=
  fold_left (fun o e => match e with
                        | EInv t' k => if (t' =? t)%nat then Some k else o
                        | ERet t' _ => if (t' =? t)%nat then None else o
                        | _ => o
                        end) evs None.
(** Not a use of the registry: a push through a pusher begins; a push, or a call on an aggregator obtained before, takes effect; a call returns. *)
Definition aside (e : event) : bool :=
  match e with
  | EInv _ (KOp (RgPush _ _ _ _)) | EInv _ (KMeter _ _ _ _ _) => true
  | EInv _ _ => false
  | ELin _ a _ | ELate _ a _ => match a with ADo (RgPush _ _ _ _) | AHeld _ _ _ _ | ADo (RgCall _ _) => true | _ => false end
  | EGiven _ _ => false
  | EObj _ _ _ _ | ERet _ _ => true
  end.
(** Not a change of the registry: no aggregator is created or deleted, no switch and no initializer set. *)
Definition harmless (e : event) : bool :=
  match e with
  | EInv _ (KOp (RgEnable _)) => false
  | ELin _ a _ | ELate _ a _ =>
      match a with ADo (RgCreate _ _ _) | ADo (RgDel _) | ADo (RgSetInit _) | ADo (RgEnable _) | AFlag _ | AEnableOne _ _ => false | _ => true end
  | _ => true
  end.

(** * Proof *)
Section T.
  Variable ne : nat -> list Z -> list Z.
  (** No lock is shared with one that writes. *)
  Definition excl (c : conc) : Prop := forall i j p q, nth_error (k_thr c) i = Some p -> nth_error (k_thr c) j = Some q -> i <> j ->
    writing p = true -> reading q = false /\ writing q = false.
  Lemma not_read c i p : nth_error (k_thr c) i = Some p -> writing p = true -> can_read c = false /\ can_write c = false.
  Proof.
    intros H W. apply nth_error_In in H. unfold can_read, can_write. split; apply negb_false_iff, existsb_exists; exists p; split; auto. now rewrite W, orb_true_r.
  Qed.
  Lemma not_write c i p : nth_error (k_thr c) i = Some p -> reading p = true -> can_write c = false.
  Proof. intros H W. apply nth_error_In in H. unfold can_write. apply negb_false_iff, existsb_exists. exists p. split; auto. now rewrite W. Qed.

  Definition busy (k : kop) : bool := match k with KOp (RgPopAll _ _) | KOp (RgEnable _) => true | _ => false end.
  (** What the call of a thread says about where the thread is. *)
  Definition where_ (o : option kop) (p : option pc) : Prop :=
    match o with
    | Some (KOp (RgEnable v)) => exists is, p = Some (PEnable v is)
    | Some (KOp (RgPopAll _ _)) => exists q, p = Some q /\ reading q = true
    | _ => match p with Some q => reading q = false /\ writing q = false | None => True end
    end.
  Definition opens (o : option kop) (t : nat) (evs : list event) : option kop :=
    fold_left (fun o e => match e with
                        | EInv t' k => if (t' =? t)%nat then Some k else o
                        | ERet t' _ => if (t' =? t)%nat then None else o
                        | _ => o
                        end) evs o.

  Lemma where_read o q q' : where_ o (Some q) -> reading q = true -> reading q' = true -> where_ o (Some q').
  Proof.
    intros W A B. assert (X : match o with Some (KOp (RgPopAll _ _)) => True | _ => False end).
    { destruct o as [[[]|]|]; cbn in *; auto; try (destruct W; congruence). destruct W as (is & W). injection W as ->. discriminate. }
    destruct o as [[[]|]|]; try contradiction. exists q'. auto.
  Qed.
  Lemma where_en o v is is' : where_ o (Some (PEnable v is)) -> where_ o (Some (PEnable v is')).
  Proof.
    intros W. assert (X : o = Some (KOp (RgEnable v))).
    { destruct o as [[[]|]|]; cbn in *; try (destruct W; congruence). destruct W as (q & W & Z). injection W as <-. discriminate. }
    subst o. exists is'. reflexivity.
  Qed.
  Lemma step_who t k c ev c' : k_step ne t k c = Ok (ev, c') -> Forall (fun e => who e = t) ev.
  Proof.
    intros E. destruct (step_Kstep _ _ _ _ _ _ E) as [(_ & -> & _)|(p & p' & ET & S & TH)]; [constructor|].
    revert S. generalize (k_reg c') (k_dead c'). intros r' d' S.
    destruct S; repeat (constructor; [reflexivity|]); try constructor; unfold lin; try (destruct reg; repeat constructor; fail).
    destruct reg, (out_ptr o); repeat constructor.
  Qed.
  Lemma opens_other t t' ev o : Forall (fun e => who e = t') ev -> t <> t' -> opens o t ev = o.
  Proof.
    intros F N. revert o. induction F as [|e ev H F IH]; intros o; [reflexivity|]. unfold opens in *. cbn [fold_left].
    assert (X : forall k : kop, (if (who e =? t)%nat then Some k else o) = o) by (intros k; rewrite H; destruct (Nat.eqb_spec t' t); congruence).
    assert (Y : (if (who e =? t)%nat then None else o) = o) by (rewrite H; destruct (Nat.eqb_spec t' t); congruence).
    destruct e; cbn [who] in *; rewrite ?X, ?Y; apply IH.
  Qed.
  (** The thread that takes the step. *)
  Lemma step_where t k c ev c' o : k_step ne t k c = Ok (ev, c') -> where_ o (nth_error (k_thr c) t) -> where_ (opens o t ev) (nth_error (k_thr c') t).
  Proof.
    intros E W. destruct (step_Kstep _ _ _ _ _ _ E) as [(N & -> & ->)|(p & p' & ET & S & TH)]; [exact W|].
    rewrite TH. assert (NT : nth_error (set_nth t p' (k_thr c)) t = Some p').
    { clear -ET. revert t ET. induction (k_thr c) as [|x l IH]; intros [|t] ET; cbn in *; try discriminate; auto. }
    rewrite NT. rewrite ET in W. clear NT TH E ET.
    revert S. generalize (k_reg c') (k_dead c'). intros r' d' S.
    assert (R : forall q, where_ o (Some q) -> reading q = false -> writing q = false -> match o with Some (KOp (RgEnable _)) | Some (KOp (RgPopAll _ _)) => False | _ => True end).
    { clear. intros q W A B. unfold where_ in W. destruct o as [[[]|]|]; auto; [destruct W as (q' & Q & Z)|destruct W as (is & Q)]; injection Q as Q; subst; cbn in *; congruence. }
    assert (R2 : forall q, match o with Some (KOp (RgEnable _)) | Some (KOp (RgPopAll _ _)) => False | _ => True end -> reading q = false -> writing q = false -> where_ o (Some q)).
    { clear. intros q. unfold where_. destruct o as [[[]|]|]; auto; contradiction. }
    assert (E1 : forall k l, opens o t (EInv t k :: l) = opens (Some k) t l) by (intros; unfold opens; cbn [fold_left]; now rewrite Nat.eqb_refl).
    assert (E2 : forall o x l, opens o t (ERet t x :: l) = opens None t l) by (intros; unfold opens; cbn [fold_left]; now rewrite Nat.eqb_refl).
    assert (E3 : forall o a x l, opens o t (ELin t a x :: l) = opens o t l) by reflexivity.
    destruct S; try exact W;
      try (cbn [opens fold_left]; rewrite ?Nat.eqb_refl; cbn; auto; fail).
    all: try (rewrite ?E1, ?E3, ?E2; unfold opens; cbn [fold_left]; rewrite ?Nat.eqb_refl; cbn; auto; fail).
    all: try (subst k; destruct dest; rewrite ?E1; cbn; auto; fail).
    all: try (subst k; rewrite ?E1, ?E3; cbn; auto; fail).
    all: try (subst k; rewrite ?E1, ?E3; cbn; eauto; fail).
    all: try (unfold lin; destruct reg; apply (R2 _ (R _ W eq_refl eq_refl)); reflexivity).
    all: try (apply (R2 _ (R _ W eq_refl eq_refl)); reflexivity).
    - apply (where_read _ _ _ W); reflexivity.
    - unfold lin. destruct reg; apply (where_read _ _ _ W); reflexivity.
    - unfold lin. destruct reg, (out_ptr o0); apply (where_read _ _ _ W); reflexivity.
    - exact (where_en _ _ _ _ W).
    - unfold lin. destruct reg; exact (where_en _ _ _ _ W).
  Qed.

  (** Another thread. *)
  Lemma step_nth t k c ev c' i : k_step ne t k c = Ok (ev, c') -> i <> t -> nth_error (k_thr c') i = nth_error (k_thr c) i.
  Proof.
    intros E N. destruct (step_Kstep _ _ _ _ _ _ E) as [(_ & _ & ->)|(p & p' & _ & _ & ->)]; [reflexivity|].
    clear -N. revert i t N. induction (k_thr c) as [|x l IH]; intros [|i] [|t] N; cbn; auto; try congruence. 
  Qed.
  Lemma step_excl t k c ev c' : k_step ne t k c = Ok (ev, c') -> excl c -> excl c'.
  Proof.
    intros E X i j p q Hp Hq N W.
    assert (OWN : forall p', nth_error (k_thr c') t = Some p' -> exists p, nth_error (k_thr c) t = Some p /\
      (writing p' = true -> writing p = true \/ can_write c = true) /\ (reading p' = true -> reading p = true \/ can_read c = true)).
    { intros p1 H1. destruct (step_Kstep _ _ _ _ _ _ E) as [(H0 & _ & ->)|(p0 & p0' & ET & S & TH)]; [congruence|].
      rewrite TH in H1. assert (p1 = p0').
      { clear -H1 ET. revert t ET H1. induction (k_thr c) as [|x l IH]; intros [|t] ET H1; cbn in *; try discriminate; [congruence|eauto]. }
      subst p1. exists p0. split; [exact ET|]. clear -S. revert S. generalize (k_reg c') (k_dead c'). intros r' d' S.
      destruct S; cbn; auto; split; auto; discriminate. }
    destruct (Nat.eq_dec i t) as [->|Ni].
    - rewrite (step_nth _ _ _ _ _ j E (not_eq_sym N)) in Hq. destruct (OWN _ Hp) as (p0 & H0 & A & _). destruct (A W) as [A1|A1].
      + exact (X _ _ _ _ H0 Hq N A1).
      + split; [destruct (reading q) eqn:R|destruct (writing q) eqn:R]; auto.
        * rewrite (not_write _ _ _ Hq R) in A1. discriminate.
        * rewrite (proj2 (not_read _ _ _ Hq R)) in A1. discriminate.
    - rewrite (step_nth _ _ _ _ _ i E Ni) in Hp. destruct (Nat.eq_dec j t) as [->|Nj].
      + destruct (OWN _ Hq) as (q0 & H0 & A & B). destruct (X _ _ _ _ Hp H0 N W) as [R1 R2]. pose proof (not_read _ _ _ Hp W) as [C1 C2].
        split; [destruct (reading q)|destruct (writing q)]; auto; [destruct (B eq_refl)|destruct (A eq_refl)]; congruence.
      + rewrite (step_nth _ _ _ _ _ j E Nj) in Hq. exact (X _ _ _ _ Hp Hq N W).
  Qed.
  Lemma lock_aside t k p x c1 c2 dest c : k = match dest with None => KOp (RgPush p x c1 c2) | Some id => KMeter p id x c1 c2 end ->
    Forall (fun e => aside e = true) (fst (k_lock t k p x c1 c2 dest c)).
  Proof.
    intros ->. unfold k_lock. cbv zeta. destruct (k_find _ _); [destruct (_ && _)|]; destruct dest; repeat constructor.
  Qed.
  (** While a thread writes, the others do nothing with the registry. *)
  Lemma step_aside t k c ev c' i p : k_step ne t k c = Ok (ev, c') -> excl c -> nth_error (k_thr c) i = Some p -> writing p = true -> i <> t ->
    Forall (fun e => aside e = true) ev.
  Proof.
    intros E X H W N. destruct (not_read _ _ _ H W) as [R1 R2]. unfold k_step in E. destruct (nth_error (k_thr c) t) as [q|] eqn:Q.
    2: { injection E as <- _. constructor. }
    destruct (X _ _ _ _ H Q N W) as [Z1 Z2].
    destruct q as [|id s op|id d c1 c2|id h|pu x c1 c2 dest|s id recs|b s o|f clk is acc|f clk is acc id s|v is]; try discriminate;
      cbn [k_start k_next] in E; rewrite ?R1, ?R2 in E; unfold guard, stay in E.
    - destruct k as [[]|pu id x c1 c2]; cbn [k_start] in E; rewrite ?R1, ?R2 in E; cbn [guard stay] in E; unfold guard, stay in E;
        try (injection E as <- _; constructor; fail).
      + injection E as E. change ev with (fst (ev, c')). rewrite <- E. now apply lock_aside.
      + injection E as E. change ev with (fst (ev, c')). rewrite <- E. now apply lock_aside.
    - destruct (can_call s c); [|injection E as <- _; constructor]. bind_in E y. destruct y as [[o reg] c1]. injection E as <- _. destruct reg; repeat constructor.
    - injection E as <- _; constructor.
    - injection E as <- _; constructor.
    - cbv zeta in E. destruct (can_call _ c); [|injection E as <- _; constructor]. bind_in E y. destruct y as [[o reg] c3]. injection E as <- _.
      destruct reg, (cleared _ _); repeat constructor.
    - injection E as <- _; constructor.
    - injection E as <- _; repeat constructor.
  Qed.
  (** While a thread reads, the others do not change the registry. *)
  Lemma step_harmless t k c ev c' i p : k_step ne t k c = Ok (ev, c') -> excl c -> nth_error (k_thr c) i = Some p -> reading p = true -> i <> t ->
    Forall (fun e => harmless e = true) ev.
  Proof.
    intros E X H W N. pose proof (not_write _ _ _ H W) as R2.
    destruct (step_Kstep _ _ _ _ _ _ E) as [(_ & -> & _)|(q & q' & ET & S & TH)]; [constructor|].
    assert (NE : writing q = false). { destruct (writing q) eqn:Wq; auto. destruct (X _ _ _ _ ET H (not_eq_sym N) Wq). congruence. }
    clear E TH ET. revert S. generalize (k_reg c') (k_dead c'). intros r' d' S.
    destruct S; try congruence; try discriminate; subst; repeat constructor; unfold lin; try (destruct reg; repeat constructor; fail).
    all: try (destruct op; try contradiction; try congruence; reflexivity).
    all: try (destruct dest; reflexivity).
    all: try (unfold push_act; destruct reg, (cleared _ _); repeat constructor; fail).
    all: destruct reg, (out_ptr o); repeat constructor.
  Qed.

  Definition knows (past : list event) (c : conc) : Prop := forall t, where_ (in_call t past) (nth_error (k_thr c) t).
  Lemma in_call_app t a b : in_call t (a ++ b) = opens (in_call t a) t b.
  Proof. unfold in_call, opens. apply fold_left_app. Qed.
  Lemma run_lock sched : forall past c evs c', knows past c -> excl c -> k_run ne c sched = Ok (evs, c') ->
    forall pre e post, evs = pre ++ e :: post ->
      (forall t v, in_call t (past ++ pre) = Some (KOp (RgEnable v)) -> who e <> t -> aside e = true) /\
      (forall t f clk, in_call t (past ++ pre) = Some (KOp (RgPopAll f clk)) -> who e <> t -> harmless e = true).
  Proof.
    induction sched as [|[t0 k] sched IH]; intros past c evs c' K X E pre e post EQ; cbn [k_run] in E.
    { injection E as <- _. destruct pre; discriminate. }
    bind_in E y. destruct y as [ev c1]. bind_in E z. destruct z as [evs1 c2]. injection E as <- <-.
    assert (K1 : knows (past ++ ev) c1).
    { intros t. rewrite in_call_app. destruct (Nat.eq_dec t t0) as [->|N].
      - eapply step_where; eauto.
      - rewrite (opens_other _ _ _ _ (step_who _ _ _ _ _ Ey) N), (step_nth _ _ _ _ _ _ Ey N). apply K. }
    pose proof (step_excl _ _ _ _ _ Ey X) as X1.
    assert (SP : (exists post', ev = pre ++ e :: post') \/ exists pre', pre = ev ++ pre' /\ evs1 = pre' ++ e :: post).
    { clear -EQ. revert pre EQ. induction ev as [|a ev IH]; intros pre EQ; cbn [app] in *; [right; exists pre; auto|].
      destruct pre as [|b pre]; cbn [app] in *; injection EQ as -> EQ; [left; exists ev; reflexivity|].
      destruct (IH _ EQ) as [(post' & ->)|(pre' & -> & H)]; [left; exists post'; reflexivity|right; exists pre'; auto]. }
    destruct SP as [(post' & ->)|(pre' & -> & H)].
    2: { rewrite app_assoc. eapply IH; eauto. }
    pose proof (step_who _ _ _ _ _ Ey) as WH. pose proof WH as WH'. apply Forall_app in WH' as [WP WE]. pose proof (Forall_inv WE) as We.
    assert (SAME : forall t, who e <> t -> in_call t (past ++ pre) = in_call t past).
    { intros t N. rewrite in_call_app. apply (opens_other t t0); [exact WP|congruence]. }
    split.
    - intros t v O N. rewrite (SAME t N) in O. pose proof (K t) as L. rewrite O in L. destruct L as (is & L).
      pose proof (step_aside _ _ _ _ _ _ _ Ey X L eq_refl ltac:(congruence)) as A. apply Forall_app in A as [_ A]. exact (Forall_inv A).
    - intros t f clk O N. rewrite (SAME t N) in O. pose proof (K t) as L. rewrite O in L. destruct L as (q & L & R).
      pose proof (step_harmless _ _ _ _ _ _ _ Ey X L R ltac:(congruence)) as A. apply Forall_app in A as [_ A]. exact (Forall_inv A).
  Qed.
End T.

(** enable() keeps everybody out of the registry: while it is at work other threads neither begin a call of the registry nor do calls begun before have
    an effect on it - only pushes through pushers and calls on aggregators obtained before go on, and no handler is given records under a name.
    While pop_all() is at work no aggregator is created or deleted and nothing is switched. *)
Theorem C62_alone_partial : forall ne o threads sched evs c, k_run ne (k_new o threads) sched = Ok (evs, c) ->
  forall pre e post, evs = pre ++ e :: post ->
    (forall t v, in_call t pre = Some (KOp (RgEnable v)) -> who e <> t -> aside e = true) /\
    (forall t f clk, in_call t pre = Some (KOp (RgPopAll f clk)) -> who e <> t -> harmless e = true).
Proof.
  intros ne o threads sched evs c E pre e post EQ.
  assert (T : forall t p, nth_error (repeat PIdle threads) t = Some p -> p = PIdle).
  { intros t p H. apply nth_error_In, repeat_spec in H. exact H. }
  apply (run_lock ne sched [] (k_new o threads) evs c) with (post := post); auto.
  - intros t. cbn. destruct (nth_error (repeat PIdle threads) t) eqn:H; auto. rewrite (T _ _ H). auto.
  - intros i j p q Hp Hq N W. cbn in Hp. rewrite (T _ _ Hp) in W. discriminate.
Qed.
Print Assumptions C62_alone_partial.
(** Both happen: thread 0 acts while thread 1 is in enable(), and thread 1 while thread 0 is in pop_all(). *)
Definition lock_seen (w : kop -> bool) (t : nat) (evs : list event) : list (bool * bool) :=
  flat_map (fun i => match in_call t (firstn i evs), nth_error evs i with
                     | Some k, Some e => if w k && negb (who e =? t)%nat then [(aside e, harmless e)] else []
                     | _, _ => []
                     end) (seq 0 (length evs)).
Example C62_alone_witness : kx_ran kx_mix = true /\
  length (lock_seen (fun k => match k with KOp (RgEnable _) => true | _ => false end) 1 (kx_evs kx_mix)) = 4%nat /\
  length (lock_seen (fun k => match k with KOp (RgPopAll _ _) => true | _ => false end) 0 (kx_evs kx_mix)) = 8%nat.
Proof. vm_compute. auto. Qed.
