(** Invariants of the reader-writer lock. *)
From Coq Require Import ZArith List Bool Arith Lia.
From Verif Require Import ModelRwlock.
Import ListNotations.
Local Open Scope Z_scope.

Definition cnt (f : thread -> nat) (l : list thread) : nat := list_sum (map f l).
Lemma cnt_app f a b : cnt f (a ++ b) = (cnt f a + cnt f b)%nat.
Proof. unfold cnt. now rewrite map_app, list_sum_app. Qed.
Lemma cnt_cons f t l : cnt f (t :: l) = (f t + cnt f l)%nat.
Proof. reflexivity. Qed.
Lemma cnt_map f g l : (forall t, f (g t) = f t) -> cnt f (map g l) = cnt f l.
Proof. intros H. unfold cnt. rewrite map_map. f_equal. apply map_ext. exact H. Qed.
Lemma cnt_zero f l : (forall t, f t = 0%nat) -> cnt f l = 0%nat.
Proof. intros H. induction l; [reflexivity|]. rewrite cnt_cons, H, IHl. reflexivity. Qed.
Lemma cnt_in f t l : In t l -> (f t <= cnt f l)%nat.
Proof. induction l as [|x l IH]; simpl; [tauto|]. rewrite cnt_cons. intros [->|H]; [|apply IH in H]; lia. Qed.
Lemma cnt_pos f l : (0 < cnt f l)%nat -> exists t, In t l /\ (0 < f t)%nat.
Proof.
  induction l as [|x l IH]; [intros H; inversion H|]. rewrite cnt_cons. intros H.
  destruct (f x) eqn:E; [|exists x; simpl; split; [auto|lia]]. destruct IH as (t & A & B); [lia|]. exists t. simpl. auto.
Qed.
Lemma cnt_le f g l : (forall t, (f t <= g t)%nat) -> (cnt f l <= cnt g l)%nat.
Proof. intros H. induction l; [reflexivity|]. rewrite !cnt_cons. specialize (H a). lia. Qed.

(** Contributions of a thread to _writer, _readers, the mutex, waiting and pending notifications *)
Definition cw (t : thread) : nat := (if hw t then 1 else 0) + match at_ t with LChk1 | LChk2 | LRel | UAcq | UDec => 1 | _ => 0 end.
Definition cr (t : thread) : nat := hr t + match at_ t with RRel | SAcq | SChk | SDec => 1 | _ => 0 end.
Definition cm (t : thread) : nat :=
  match at_ t with
  | LTest | LInc | LChk1 | LChk2 | LRel | UDec | UChk | UNotW | UNotR | URel | RTest | RChk | RInc | RRel | SChk | SDec | STest | SNot | SRel => 1
  | _ => 0
  end.
Definition c_lwait (t : thread) : nat := match at_ t with LWait => 1 | _ => 0 end.
Definition c_rwait (t : thread) : nat := match at_ t with RWait => 1 | _ => 0 end.
Definition c_notw (t : thread) : nat := match at_ t with UChk | UNotW | STest | SNot => 1 | _ => 0 end.
Definition c_notr (t : thread) : nat := match at_ t with UChk | UNotW | UNotR => 1 | _ => 0 end.

(** What a thread inside the mutex knows, and what every thread respects *)
Definition knows (s : shared) (t : thread) : Prop :=
  match at_ t with
  | LInc => wr s = 0 /\ rd s = 0
  | UChk => wr s = 0
  | RChk | RInc => wr s = 0
  | SNot => rd s = 0
  | _ => True
  end.
Definition fair (t : thread) : Prop :=
  match at_ t with
  | LAcq | LTest | LInc | LChk1 | LChk2 | LRel | LWait => hw t = false /\ hr t = 0%nat
  | RAcq | RTest | RChk | RInc | RRel => hw t = false
  | RWait => hw t = false /\ hr t = 0%nat
  | Dead => False
  | _ => True
  end.

(** [n] is a notification about to be delivered. *)
Record InvN (n : note) (s : state) : Prop := {
  i_wr : wr (sh s) = Z.of_nat (cnt cw (ts s));
  i_rd : rd (sh s) = Z.of_nat (cnt cr (ts s));
  i_mtx : cnt cm (ts s) = if sm (sh s) then 1%nat else 0%nat;
  i_one : (cnt cw (ts s) <= 1)%nat;
  i_excl : cnt cw (ts s) = 1%nat -> cnt cr (ts s) = 0%nat;
  i_knows : Forall (knows (sh s)) (ts s);
  i_fair : Forall fair (ts s);
  i_lwait : n <> NoteW -> (0 < cnt c_lwait (ts s))%nat -> wr (sh s) <> 0 \/ rd (sh s) <> 0 \/ (0 < cnt c_notw (ts s))%nat;
  i_rwait : n <> NoteR -> (0 < cnt c_rwait (ts s))%nat -> wr (sh s) <> 0 \/ (0 < cnt c_notr (ts s))%nat }.

Notation Inv := (InvN NoNote).

Lemma init_inv n : Inv (init n).
Proof.
  unfold init. assert (Z0 : forall f, f (mk_thread Idle false 0) = 0%nat -> cnt f (repeat (mk_thread Idle false 0) n) = 0%nat).
  { intros f H. induction n as [|n IH]; simpl; [reflexivity|]. rewrite cnt_cons, H, IH. reflexivity. }
  constructor; cbn [sh ts sm rd wr]; rewrite ?Z0; try reflexivity; try lia; try (intros; lia).
  - apply Forall_forall. intros t H. apply repeat_spec in H. subst t. exact I.
  - apply Forall_forall. intros t H. apply repeat_spec in H. subst t. exact I.
Qed.

Lemma wake_inv s l n : InvN n (mk_state s l) -> Inv (mk_state s (map (wake n) l)).
Proof.
  intros H.
  assert (E : forall f, (forall t, f (wake n t) = f t) -> cnt f (map (wake n) l) = cnt f l) by (intros; now apply cnt_map).
  assert (Ew : cnt cw (map (wake n) l) = cnt cw l) by (apply E; intros [[] ? ?]; destruct n; reflexivity).
  assert (Er : cnt cr (map (wake n) l) = cnt cr l) by (apply E; intros [[] ? ?]; destruct n; reflexivity).
  assert (Em : cnt cm (map (wake n) l) = cnt cm l) by (apply E; intros [[] ? ?]; destruct n; reflexivity).
  assert (En : cnt c_notw (map (wake n) l) = cnt c_notw l) by (apply E; intros [[] ? ?]; destruct n; reflexivity).
  assert (Ef : cnt c_notr (map (wake n) l) = cnt c_notr l) by (apply E; intros [[] ? ?]; destruct n; reflexivity).
  destruct H as [A B C D F G H J K]. cbn [sh ts] in *.
  constructor; cbn [sh ts]; rewrite ?Ew, ?Er, ?Em, ?En, ?Ef; auto.
  - rewrite Forall_map. eapply Forall_impl; [|exact G]. intros [[] ? ?]; destruct n; cbn; auto.
  - rewrite Forall_map. eapply Forall_impl; [|exact H]. intros [[] ? ?]; destruct n; cbn; auto; tauto.
  - intros _ P. assert (N : n = NoteW \/ n <> NoteW) by (destruct n; auto; right; discriminate). destruct N as [->|N].
    + exfalso. apply cnt_pos in P. destruct P as (t & I1 & I2). apply in_map_iff in I1. destruct I1 as ([[] ? ?] & <- & _); cbn in I2; lia.
    + apply (J N). rewrite E in P; [exact P|]. intros [[] ? ?]; destruct n; cbn; congruence.
  - intros _ P. assert (N : n = NoteR \/ n <> NoteR) by (destruct n; auto; right; discriminate). destruct N as [->|N].
    + exfalso. apply cnt_pos in P. destruct P as (t & I1 & I2). apply in_map_iff in I1. destruct I1 as ([[] ? ?] & <- & _); cbn in I2; lia.
    + apply (K N). rewrite E in P; [exact P|]. intros [[] ? ?]; destruct n; cbn; congruence.
Qed.

Lemma knows_other l s' : cnt cm l = 0%nat -> Forall (knows s') l.
Proof.
  intros H. apply Forall_forall. intros t Ht. apply (cnt_in cm) in Ht. rewrite H in Ht.
  destruct t as [[] ? ?]; cbn in *; auto; lia.
Qed.

Lemma tstep_inv s t a s' t' n l r : Inv (mk_state s (l ++ t :: r)) -> tstep s t a = Some (s', t', n) ->
  InvN n (mk_state s' (l ++ t' :: r)).
Proof.
  intros [A B C D F G H J K] T. cbn [sh ts] in *.
  rewrite !cnt_app, !cnt_cons in *. specialize (J ltac:(discriminate)). specialize (K ltac:(discriminate)).
  rewrite Forall_app in G, H. destruct G as [G1 G2]. destruct H as [H1 H2].
  inversion G2 as [|? ? Gt G2']; subst. inversion H2 as [|? ? Ht H2']; subst. clear G2 H2.
  assert (KO : (rd s' = rd s /\ wr s' = wr s) \/ cm t = 1%nat).
  { destruct t as [[] ? ?], a as [[]| |]; cbn in T; try discriminate; auto;
      unfold acquire, goto, release in T; cbn in T;
      repeat match type of T with context [if ?x then _ else _] => destruct x; try discriminate end; injection T as <- <- <-; auto. }
  assert (KL : Forall (knows s') l /\ Forall (knows s') r).
  { destruct KO as [[E1 E2]|E].
    - split; [eapply Forall_impl; [|exact G1]|eapply Forall_impl; [|exact G2']]; intros [[] ? ?]; unfold knows; cbn; rewrite ?E1, ?E2; auto.
    - split; apply knows_other; destruct (sm s); lia. }
  clear KO G1 G2'. destruct KL as [KL KR].
  assert (R : (wr s' = Z.of_nat (cnt cw l + (cw t' + cnt cw r)) /\ rd s' = Z.of_nat (cnt cr l + (cr t' + cnt cr r)) /\
    (cnt cm l + (cm t' + cnt cm r) = if sm s' then 1 else 0)%nat /\
    (cnt cw l + (cw t' + cnt cw r) <= 1)%nat /\
    ((cnt cw l + (cw t' + cnt cw r) = 1)%nat -> (cnt cr l + (cr t' + cnt cr r) = 0)%nat) /\
    knows s' t' /\ fair t') /\
    (n <> NoteW -> (0 < cnt c_lwait l + (c_lwait t' + cnt c_lwait r))%nat -> wr s' <> 0 \/ rd s' <> 0 \/ (0 < cnt c_notw l + (c_notw t' + cnt c_notw r))%nat) /\
    (n <> NoteR -> (0 < cnt c_rwait l + (c_rwait t' + cnt c_rwait r))%nat -> wr s' <> 0 \/ (0 < cnt c_notr l + (c_notr t' + cnt c_notr r))%nat)).
  { destruct s as [m rdv wrv]. destruct t as [p w k].
    destruct p, a as [[]| |]; cbn in T; try discriminate; unfold acquire, goto, release in T; cbn in T;
      repeat match type of T with context [if ?x then _ else _] => destruct x eqn:?; try discriminate end;
      injection T as <- <- <-; cbn in *;
      repeat match goal with
      | H : (_ =? _) = true |- _ => apply Z.eqb_eq in H
      | H : (_ =? _) = false |- _ => apply Z.eqb_neq in H
      | H : (_ && _)%bool = true |- _ => apply andb_prop in H; destruct H
      | H : (_ && _)%bool = false |- _ => apply andb_false_iff in H
      | H : negb _ = true |- _ => apply negb_true_iff in H
      | H : negb _ = false |- _ => apply negb_false_iff in H
      | H : (_ =? _)%nat = true |- _ => apply Nat.eqb_eq in H
      | H : (_ <? _)%nat = true |- _ => apply Nat.ltb_lt in H
      | H : _ /\ _ |- _ => destruct H
      end; subst; try (destruct w); try congruence; cbn in *;
      (split; [repeat split; try lia; try (destruct m; lia); auto|split; intros; try congruence; try lia]).
    all: try (destruct k; [discriminate|cbn [Init.Nat.pred] in *; lia]).
    match goal with H : _ \/ _ |- _ => destruct H as [H|H]; apply Z.eqb_neq in H; lia end. }
  destruct R as ((R1 & R2 & R3 & R4 & R5 & R6 & R7) & R8 & R9).
  constructor; cbn [sh ts]; rewrite ?cnt_app, ?cnt_cons; auto; apply Forall_app; split; auto.
Qed.

Lemma step_inv a s s' : Inv s -> step a s s' -> Inv s'.
Proof. intros HI S. inversion S; subst. apply wake_inv. eapply tstep_inv; eassumption. Qed.

Lemma steps_inv l s s' : Inv s -> steps l s s' -> Inv s'.
Proof. intros HI S. revert HI. induction S; intros HI; [exact HI|]. apply IHS. eapply step_inv; eassumption. Qed.

Lemma reach_inv s : reachable s -> Inv s.
Proof. intros (n & l & S). eapply steps_inv; [apply init_inv|exact S]. Qed.

Lemma cnt_two f l i j x y : i <> j -> nth_error l i = Some x -> nth_error l j = Some y -> (f x + f y <= cnt f l)%nat.
Proof.
  revert i j. induction l as [|z l IH]; intros [|i] [|j] N X Y; simpl in X, Y; try discriminate; rewrite cnt_cons.
  - congruence.
  - injection X as <-. apply nth_error_In in Y. apply (cnt_in f) in Y. lia.
  - injection Y as <-. apply nth_error_In in X. apply (cnt_in f) in X. lia.
  - specialize (IH i j ltac:(congruence) X Y). lia.
Qed.

Lemma exclusive s i t : reachable s -> nth_error (ts s) i = Some t -> hw t = true ->
  hr t = 0%nat /\ forall j u, j <> i -> nth_error (ts s) j = Some u -> hw u = false /\ hr u = 0%nat.
Proof.
  intros R E W. apply reach_inv in R. destruct R as [_ _ _ D F _ _ _ _].
  assert (C : (1 <= cw t)%nat) by (unfold cw; rewrite W; lia).
  assert (T : (cw t <= cnt cw (ts s))%nat) by (apply cnt_in; eapply nth_error_In; exact E).
  assert (Z0 : cnt cr (ts s) = 0%nat) by (apply F; lia).
  assert (Rz : forall u, In u (ts s) -> hr u = 0%nat).
  { intros u Hu. apply (cnt_in cr) in Hu. rewrite Z0 in Hu. unfold cr in Hu. lia. }
  split; [apply Rz; eapply nth_error_In; exact E|]. intros j u N Eu. split; [|apply Rz; eapply nth_error_In; exact Eu].
  pose proof (cnt_two cw (ts s) j i u t N Eu E) as X. destruct (hw u) eqn:Wu; [|reflexivity]. unfold cw at 1 in X. rewrite Wu in X. lia.
Qed.

Lemma alive s t : reachable s -> In t (ts s) -> at_ t <> Dead.
Proof. intros R H E. apply reach_inv in R. pose proof (i_fair _ _ R) as F. rewrite Forall_forall in F. specialize (F t H). unfold fair in F. now rewrite E in F. Qed.

(** Waiting threads that have not been woken *)
Lemma no_lost_wakeup s : reachable s -> sm (sh s) = false ->
  (wr (sh s) = 0 -> rd (sh s) = 0 -> Forall (fun t => at_ t <> LWait) (ts s)) /\
  (wr (sh s) = 0 -> Forall (fun t => at_ t <> RWait) (ts s)).
Proof.
  intros R M. apply reach_inv in R. destruct R as [_ _ C _ _ _ _ J K]. rewrite M in C.
  assert (NW : cnt c_notw (ts s) = 0%nat).
  { assert (L : (cnt c_notw (ts s) <= cnt cm (ts s))%nat) by (apply cnt_le; intros [[] ? ?]; cbn; lia). lia. }
  assert (NR : cnt c_notr (ts s) = 0%nat).
  { assert (L : (cnt c_notr (ts s) <= cnt cm (ts s))%nat) by (apply cnt_le; intros [[] ? ?]; cbn; lia). lia. }
  split; intros.
  - apply Forall_forall. intros t Ht E. destruct J as [|[|]]; try congruence; try lia.
    apply (cnt_in c_lwait) in Ht. unfold c_lwait in Ht at 1. rewrite E in Ht. lia.
  - apply Forall_forall. intros t Ht E. destruct K as [|]; try congruence; try lia.
    apply (cnt_in c_rwait) in Ht. unfold c_rwait in Ht at 1. rewrite E in Ht. lia.
Qed.

Lemma nested s t : reachable s -> In t (ts s) -> (0 < hr t)%nat -> at_ t <> RWait /\ wr (sh s) = 0.
Proof.
  intros R H P. apply reach_inv in R. destruct R as [A _ C D F _ FA _ _]. split.
  - rewrite Forall_forall in FA. specialize (FA t H). unfold fair in FA. intros E. rewrite E in FA. destruct FA as [_ FA]. rewrite FA in P. inversion P.
  - assert (X : (cr t <= cnt cr (ts s))%nat) by (apply cnt_in; exact H). unfold cr at 1 in X. assert (N : cnt cw (ts s) <> 1%nat) by (intros N; apply F in N; lia). lia.
Qed.

(** Progress *)
Definition quiet (s : state) : Prop := forall s', ~ step Run s s'.

Lemma can_run s t : reachable s -> In t (ts s) -> (cm t = 1 \/ (sm (sh s) = false /\ (at_ t = LAcq \/ at_ t = UAcq \/ at_ t = RAcq \/ at_ t = SAcq)))%nat ->
  exists s', step Run s s'.
Proof.
  intros R H P. pose proof (alive s t R H) as D. destruct s as [s l]. cbn [sh ts] in *. apply in_split in H. destruct H as (a & b & ->).
  assert (T : exists x, tstep s t Run = Some x).
  { destruct P as [P|[M P]].
    - destruct t as [[] ? ?]; cbn in P; try discriminate; cbn; unfold goto, release;
        repeat match goal with |- context [if ?x then _ else _] => destruct x end; eauto.
    - destruct t as [p ? ?]. cbn in P. destruct P as [->|[->|[->| ->]]]; cbn; unfold acquire; rewrite M; eauto. }
  destruct T as [[[s' t'] n] T]. eexists. econstructor. exact T.
Qed.

(** Threads stuck without any possible step wait for a caller that holds the lock and is outside its functions. *)
Lemma quiet_holder s : reachable s -> quiet s ->
  Forall (fun t => at_ t = Idle \/ at_ t = LWait \/ at_ t = RWait) (ts s) /\
  (Exists (fun t => at_ t <> Idle) (ts s) -> Exists (fun t => at_ t = Idle /\ (hw t = true \/ (0 < hr t)%nat)) (ts s)).
Proof.
  intros R Q. pose proof R as R0. apply reach_inv in R.
  assert (M0 : sm (sh s) = false).
  { destruct (sm (sh s)) eqn:M; [|reflexivity]. pose proof (i_mtx _ _ R) as C. rewrite M in C.
    destruct (cnt_pos cm (ts s)) as (t & I1 & I2); [lia|]. exfalso. destruct (can_run s t R0 I1) as [s' X]; [|exact (Q s' X)].
    left. destruct t as [[] ? ?]; cbn in *; lia. }
  assert (F : Forall (fun t => at_ t = Idle \/ at_ t = LWait \/ at_ t = RWait) (ts s)).
  { apply Forall_forall. intros t Ht. pose proof (alive s t R0 Ht) as D.
    assert (N : ~ (cm t = 1 \/ (sm (sh s) = false /\ (at_ t = LAcq \/ at_ t = UAcq \/ at_ t = RAcq \/ at_ t = SAcq)))%nat).
    { intros X. destruct (can_run s t R0 Ht X) as [s' Y]. exact (Q s' Y). }
    destruct t as [[] ? ?]; cbn in *; auto; try congruence; exfalso; apply N; auto 7. }
  split; [exact F|]. intros E. destruct (no_lost_wakeup s R0 M0) as [NW NR].
  assert (H : exists t, In t (ts s) /\ (0 < cw t + cr t)%nat).
  { destruct R as [A B _ _ _ _ _ _ _]. apply Exists_exists in E. destruct E as (t & Ht & Et).
    assert (P : (0 < cnt cw (ts s) \/ 0 < cnt cr (ts s))%nat).
    { destruct (cnt cw (ts s)) eqn:X; [|left; lia]. destruct (cnt cr (ts s)) eqn:Y; [|right; lia]. exfalso.
      specialize (NW A B). specialize (NR A). rewrite Forall_forall in F, NW, NR.
      specialize (F t Ht). specialize (NW t Ht). specialize (NR t Ht). cbn in *. tauto. }
    destruct P as [P|P]; apply cnt_pos in P; destruct P as (u & I1 & I2); exists u; split; auto; lia. }
  destruct H as (t & Ht & Pt). apply Exists_exists. exists t. split; [exact Ht|].
  pose proof (i_fair _ _ R) as FA. rewrite Forall_forall in F, FA. specialize (F t Ht). specialize (FA t Ht).
  destruct t as [p w k]. unfold cw, cr, fair in *. cbn in *. destruct F as [->|[->| ->]]; cbn in *.
  - split; [reflexivity|]. destruct w; [auto|right; lia].
  - destruct FA as [-> ->]. cbn in Pt. lia.
  - destruct FA as [-> ->]. cbn in Pt. lia.
Qed.

(** Every step of the lock's own code decreases this measure. *)
Definition weight (n : nat) (t : thread) : nat :=
  match at_ t with
  | Idle | LWait | RWait | Dead => 0
  | LAcq => 7 | LTest => 6 | LInc => 5 | LChk1 => 4 | LChk2 => 3 | LRel => 2
  | RAcq => 7 | RTest => 6 | RChk => 5 | RInc => 4 | RRel => 3
  | UAcq => 6 + 14 * n | UDec => 5 + 14 * n | UChk => 4 + 14 * n | UNotW => 3 + 14 * n | UNotR => 2 + 7 * n | URel => 1
  | SAcq => 6 + 7 * n | SChk => 5 + 7 * n | SDec => 4 + 7 * n | STest => 3 + 7 * n | SNot => 2 + 7 * n | SRel => 1
  end.
Definition measure (s : state) : nat := cnt (weight (length (ts s))) (ts s).

Lemma wake_weight n m l : (cnt (weight m) (map (wake n) l) <= cnt (weight m) l + 7 * length l)%nat.
Proof.
  induction l as [|t l IH]; [reflexivity|]. cbn [map]. rewrite !cnt_cons. cbn [length].
  assert (W : (weight m (wake n t) <= weight m t + 7)%nat) by (destruct t as [[] ? ?], n; cbn; lia). lia.
Qed.
Lemma wake_none l : map (wake NoNote) l = l.
Proof. rewrite <- (map_id l) at 2. apply map_ext. intros [[] ? ?]; reflexivity. Qed.

Lemma run_decreases s s' : step Run s s' -> (measure s' < measure s)%nat.
Proof.
  intros S. inversion S as [s0 l t r a s1 t' n T]; subst. unfold measure. cbn [ts].
  rewrite map_length, !app_length. cbn [length]. set (N := (length l + Datatypes.S (length r))%nat).
  assert (B : (cnt (weight N) (l ++ t' :: r) + (match n with NoNote => 0 | _ => 7 * N end) < cnt (weight N) (l ++ t :: r))%nat).
  { rewrite !cnt_app, !cnt_cons.
    assert (W : (weight N t' + (match n with NoNote => 0 | _ => 7 * N end) < weight N t)%nat).
    { clearbody N. destruct t as [[] ? ?]; cbn in T; try discriminate; unfold acquire, goto, release in T; cbn in T;
        repeat match type of T with context [if ?x then _ else _] => destruct x; try discriminate end; injection T as <- <- <-; cbn; lia. }
    lia. }
  destruct n; [rewrite wake_none; lia| |];
    (eapply Nat.le_lt_trans; [apply wake_weight|]; rewrite app_length; cbn [length]; fold N; exact B).
Qed.

Lemma runs_bounded l s s' : steps l s s' -> Forall (fun a => a = Run) l -> (length l + measure s' <= measure s)%nat.
Proof.
  intros S. induction S; intros F; [simpl; lia|]. inversion F; subst. specialize (IHS H3). apply run_decreases in H. simpl. lia.
Qed.

Lemma step_dec s : (exists s', step Run s s') \/ quiet s.
Proof.
  destruct s as [s l].
  assert (E : (exists t, In t l /\ tstep s t Run <> None) \/ forall t, In t l -> tstep s t Run = None).
  { induction l as [|t l IH]; [right; intros t []|]. destruct (tstep s t Run) eqn:T.
    - left. exists t. split; [left; reflexivity|congruence].
    - destruct IH as [(u & A & B)|N]; [left; exists u; simpl; auto|]. right. intros u [<-|H]; auto. }
  destruct E as [(t & H & T)|N].
  - left. apply in_split in H. destruct H as (a & b & ->). destruct (tstep s t Run) as [[[s' t'] n]|] eqn:E; [|congruence]. eexists. econstructor. exact E.
  - right. intros s' S. inversion S as [s0 a t b ac s1 t' n T]; subst. rewrite N in T; [discriminate|]. apply in_or_app. right. left. reflexivity.
Qed.

Lemma settles s : exists l s', Forall (fun a => a = Run) l /\ steps l s s' /\ quiet s'.
Proof.
  remember (measure s) as m eqn:E. revert s E. induction m as [m IH] using lt_wf_ind. intros s ->.
  destruct (step_dec s) as [[s1 S]|Q].
  - destruct (IH (measure s1) (run_decreases _ _ S) s1 eq_refl) as (l & s' & A & B & C).
    exists (Run :: l), s'. split; [constructor; auto|]. split; [econstructor; eauto|exact C].
  - exists [], s. split; [constructor|]. split; [constructor|exact Q].
Qed.

Lemma steps_app l1 l2 s s1 s2 : steps l1 s s1 -> steps l2 s1 s2 -> steps (l1 ++ l2) s s2.
Proof. intros A B. induction A; [exact B|]. simpl. econstructor; eauto. Qed.
Lemma reach_steps s l s' : reachable s -> steps l s s' -> reachable s'.
Proof. intros (n & l0 & A) B. exists n, (l0 ++ l). eapply steps_app; eassumption. Qed.

(** What the callers hold does not change by the lock's own steps that do not return. *)
Definition holding (t : thread) : bool := hw t || (0 <? hr t)%nat.
