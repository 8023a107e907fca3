(** Proofs about several spinlocks. *)
From Coq Require Import ZArith List Bool Arith Lia.
From Verif Require Import Base ModelReducer ListFacts ModelSpins SpecSpins.
Import ListNotations.

Definition allheld (s : spins) : list nat := flat_map n_held (n_thr s).
Definition b2n (b : bool) : nat := if b then 1 else 0.
(** the flag of a lock says how many hold it *)
Definition NInv (s : spins) : Prop :=
  forall k, count_occ Nat.eq_dec (allheld s) k = match nth_error (n_value s) k with Some b => b2n b | None => 0 end.
(** a move under way carries false *)
Definition MInv0 (s : spins) : Prop := forall t p i v, nth_error (n_thr s) t = Some p -> n_pc p = NMoving i v -> v = false /\ i < length (n_value s).
(** the action at hand moves nothing that is held *)
Definition calm1 (t : nat) (a : nact) (s : spins) : Prop :=
  match a with
  | NLoad _ j => free_k s j
  | NStore => forall p i v, nth_error (n_thr s) t = Some p -> n_pc p = NMoving i v -> free_k s i
  | _ => True
  end.

Lemma flat_held_set : forall (l : list nthr) t p p' k, nth_error l t = Some p ->
  count_occ Nat.eq_dec (flat_map n_held (set_nth t p' l)) k + count_occ Nat.eq_dec (n_held p) k =
  count_occ Nat.eq_dec (flat_map n_held l) k + count_occ Nat.eq_dec (n_held p') k.
Proof.
  intros l t p p' k H. destruct (nth_error_split _ _ H) as (a & b & -> & <-). rewrite set_nth_app.
  rewrite !flat_map_app. cbn [flat_map]. rewrite !count_occ_app. lia.
Qed.
Lemma count_drop1 : forall l k x, In k l -> count_occ Nat.eq_dec (drop1 k l) x + (if Nat.eq_dec k x then 1 else 0) = count_occ Nat.eq_dec l x.
Proof.
  induction l as [|y l IH]; intros k x I; [contradiction|]. cbn [drop1]. destruct (Nat.eqb_spec y k) as [->|N].
  - cbn [count_occ]. destruct (Nat.eq_dec k x); lia.
  - destruct I as [->|I]; [congruence|]. specialize (IH k x I). cbn [count_occ]. destruct (Nat.eq_dec y x), (Nat.eq_dec k x); lia.
Qed.
Lemma nth_set_nth : forall A (l : list A) k x j, nth_error (set_nth k x l) j = if Nat.eq_dec k j then match nth_error l k with Some _ => Some x | None => None end else nth_error l j.
Proof.
  intros A l k x j. destruct (Nat.eq_dec k j) as [<-|N]; [|apply nth_error_set_nth_neq; exact N].
  destruct (nth_error l k) eqn:E.
  - apply nth_error_set_nth_eq. apply nth_error_Some. congruence.
  - apply nth_error_None. rewrite set_nth_length. apply nth_error_None. exact E.
Qed.

Lemma free_flag : forall s k b, NInv s -> free_k s k -> nth_error (n_value s) k = Some b -> b = false.
Proof.
  intros s k b I F H. specialize (I k). rewrite H in I. destruct b; [|reflexivity]. exfalso.
  assert (C : In k (allheld s)) by (apply (count_occ_In Nat.eq_dec); rewrite I; cbn; lia).
  apply in_flat_map in C. destruct C as (p & Ip & Ik). apply In_nth_error in Ip. destruct Ip as (t & E). apply (F t). exists p. auto.
Qed.
Lemma step_inv : forall t a s o s', calm1 t a s -> NInv s -> MInv0 s -> n_step t a s = Some (o, s') -> NInv s'.
Proof.
  intros t a s o s' NM I M H. unfold n_step in H. destruct (nth_error (n_thr s) t) as [p|] eqn:E; [|discriminate].
  destruct (n_do a (n_value s) p) as [[[v p'] o']|] eqn:D; [|discriminate]. injection H as <- <-.
  intros k. unfold allheld. cbn [n_thr n_value]. pose proof (flat_held_set (n_thr s) t p p' k E) as F. pose proof (I k) as Ik. unfold allheld in Ik. rewrite Ik in F. clear Ik.
  destruct p as [h pc]. destruct a as [j| |j|j|i j|]; cbn [calm1] in NM; destruct pc as [|q|i0 v0]; cbn [n_do n_pc n_held] in D; try discriminate.
  - destruct (nth_error (n_value s) j); [|discriminate]. injection D as <- <- <-. cbn [n_held] in F. lia.
  - destruct (nth_error (n_value s) q) as [[]|] eqn:V; [| |discriminate]; injection D as <- <- <-; cbn [n_held count_occ] in F; [lia|].
    rewrite nth_set_nth. destruct (Nat.eq_dec q k) as [->|N]; rewrite ?V in *; cbn [b2n] in *; lia.
  - destruct (nth_error (n_value s) j) as [[]|] eqn:V; [| |discriminate]; injection D as <- <- <-; cbn [n_held count_occ] in F; [lia|].
    rewrite nth_set_nth. destruct (Nat.eq_dec j k) as [->|N]; rewrite ?V in *; cbn [b2n] in *; lia.
  - destruct (existsb (Nat.eqb j) h) eqn:X; [|discriminate]. injection D as <- <- <-. cbn [n_held] in F.
    apply existsb_exists in X. destruct X as (y & Iy & X). apply Nat.eqb_eq in X. subst y.
    pose proof (count_drop1 h j k Iy) as C. rewrite nth_set_nth. destruct (Nat.eq_dec j k) as [->|N]; [|lia].
    assert (Q : (0 < count_occ Nat.eq_dec (flat_map n_held (n_thr s)) k)%nat).
    { apply count_occ_In. apply in_flat_map. exists (mk_nthr h NOut). split; [eapply nth_error_In; exact E|exact Iy]. }
    pose proof (I k) as Ik. unfold allheld in Ik. destruct (nth_error (n_value s) k) as [[]|]; cbn [b2n] in *; lia.
  - destruct (nth_error (n_value s) i); [|discriminate]. destruct (nth_error (n_value s) j); [|discriminate]. injection D as <- <- <-. cbn [n_held] in F. lia.
  - injection D as <- <- <-. cbn [n_held] in F. destruct (M _ _ _ _ E eq_refl) as [-> L]. specialize (NM _ _ _ E eq_refl).
    rewrite nth_set_nth. destruct (Nat.eq_dec i0 k) as [->|N]; [|lia].
    destruct (nth_error (n_value s) k) as [b|] eqn:V; [|lia]. rewrite (free_flag s k b I NM V) in F. lia.
Qed.
Lemma step_value_length : forall t a s o s', n_step t a s = Some (o, s') -> length (n_value s') = length (n_value s) /\ length (n_thr s') = length (n_thr s).
Proof.
  intros t a s o s' H. unfold n_step in H. destruct (nth_error (n_thr s) t) as [p|]; [|discriminate].
  destruct (n_do a (n_value s) p) as [[[v p'] o']|] eqn:D; [|discriminate]. injection H as <- <-. cbn [n_value n_thr]. rewrite set_nth_length. split; [|reflexivity].
  destruct a, p as [h [|q|i0 v0]]; cbn [n_do n_pc n_held] in D; try discriminate;
    repeat match type of D with context [match ?x with _ => _ end] => destruct x; try discriminate end; injection D as <- <- <-; rewrite ?set_nth_length; reflexivity.
Qed.
Lemma step_moving : forall t a s o s', calm1 t a s -> NInv s -> MInv0 s -> n_step t a s = Some (o, s') -> MInv0 s'.
Proof.
  intros t a s o s' NM I M H. destruct (step_value_length _ _ _ _ _ H) as [L _]. unfold n_step in H. destruct (nth_error (n_thr s) t) as [p|] eqn:E; [|discriminate].
  destruct (n_do a (n_value s) p) as [[[v p'] o']|] eqn:D; [|discriminate]. injection H as <- <-.
  intros u q i b Hu Hq. rewrite L. cbn [n_thr] in Hu. rewrite nth_set_nth in Hu. destruct (Nat.eq_dec t u) as [<-|N]; [|exact (M _ _ _ _ Hu Hq)].
  rewrite E in Hu. injection Hu as <-.
  destruct p as [h pc]. destruct a as [j| |j|j|i1 j|]; cbn [calm1] in NM; destruct pc as [|r|i0 v0]; cbn [n_do n_pc n_held] in D; try discriminate;
    repeat match type of D with context [match ?x with _ => _ end] => destruct x eqn:?; try discriminate end;
    injection D as <- <- <-; cbn [n_pc] in Hq; try discriminate.
  injection Hq as <- <-. split; [exact (free_flag s j _ I NM Heqo0)|]. apply nth_error_Some. congruence.
Qed.
Lemma new_inv : forall n m, NInv (n_new n m) /\ MInv0 (n_new n m).
Proof.
  intros n m. split.
  - intros k. unfold allheld, n_new. cbn [n_thr n_value].
    assert (A : flat_map n_held (repeat (mk_nthr [] NOut) m) = []) by (induction m; cbn; auto). rewrite A. cbn.
    destruct (nth_error (repeat false n) k) as [b|] eqn:E; [|reflexivity]. apply nth_error_In in E. apply repeat_spec in E. subst. reflexivity.
  - intros t p i v H Q. apply nth_error_In in H. apply repeat_spec in H. subst p. discriminate.
Qed.
Lemma run_inv : forall acts s s', calm acts s -> NInv s -> MInv0 s -> n_run acts s = Some s' -> NInv s' /\ MInv0 s'.
Proof.
  induction acts as [|[t a] acts IH]; intros s s' F I M H; cbn [n_run] in H; [injection H as <-; auto|].
  cbn [calm] in F. destruct F as [F1 F2]. destruct (n_step t a s) as [[o s1]|] eqn:S; [|discriminate].
  assert (C : calm1 t a s) by exact F1.
  eapply IH; [exact F2| | |exact H]; [eapply step_inv|eapply step_moving]; eauto.
Qed.
Lemma unmoved_calm : forall acts s, unmoved acts -> calm acts s.
Proof.
  induction acts as [|[t a] acts IH]; intros s U; cbn [calm]; [exact I|]. split.
  - specialize (U t a (or_introl eq_refl)). destruct a; auto; contradiction.
  - destruct (n_step t a s) as [[o s1]|]; [|exact I]. apply IH. intros u b H. apply (U u b). right. exact H.
Qed.

(** who holds a lock *)
Lemma held_count : forall (l : list nthr) k i j p q, (count_occ Nat.eq_dec (flat_map n_held l) k <= 1)%nat ->
  nth_error l i = Some p -> nth_error l j = Some q -> In k (n_held p) -> In k (n_held q) -> i = j.
Proof.
  induction l as [|x l IH]; intros k i j p q C Hi Hj Ip Iq; [destruct i; discriminate|]. cbn [flat_map] in C. rewrite count_occ_app in C.
  assert (S : forall i p, nth_error l i = Some p -> In k (n_held p) -> (0 < count_occ Nat.eq_dec (flat_map n_held l) k)%nat).
  { intros a b H I. apply count_occ_In. apply in_flat_map. exists b. split; [eapply nth_error_In; exact H|exact I]. }
  destruct i as [|i], j as [|j]; cbn [nth_error] in Hi, Hj.
  - reflexivity.
  - injection Hi as <-. exfalso. apply (count_occ_In Nat.eq_dec) in Ip. specialize (S _ _ Hj Iq). lia.
  - injection Hj as <-. exfalso. apply (count_occ_In Nat.eq_dec) in Iq. specialize (S _ _ Hi Ip). lia.
  - f_equal. eapply IH; eauto. lia.
Qed.

(** what one step does to a thread *)
Lemma step_other : forall t a s o s' u, n_step t a s = Some (o, s') -> u <> t -> nth_error (n_thr s') u = nth_error (n_thr s) u.
Proof.
  intros t a s o s' u H N. unfold n_step in H. destruct (nth_error (n_thr s) t) as [p|]; [|discriminate].
  destruct (n_do a (n_value s) p) as [[[v p'] o']|]; [|discriminate]. injection H as <- <-. cbn [n_thr]. apply nth_error_set_nth_neq. auto.
Qed.
(** rising programs: whoever waits for k holds only lower locks *)
Definition RInv (rank : nat -> nat) (s : spins) : Prop :=
  forall t p k h, nth_error (n_thr s) t = Some p -> n_pc p = NSpin k -> In h (n_held p) -> rank h < rank k.
Lemma rising_step : forall rank t a s o s', match a with NLock k => forall h, holds_k s t h -> rank h < rank k | _ => True end ->
  RInv rank s -> n_step t a s = Some (o, s') -> RInv rank s'.
Proof.
  intros rank t a s o s' R I H. unfold n_step in H. destruct (nth_error (n_thr s) t) as [p|] eqn:E; [|discriminate].
  destruct (n_do a (n_value s) p) as [[[v p'] o']|] eqn:D; [|discriminate]. injection H as <- <-.
  intros u q k h Hu Hq Ih. cbn [n_thr] in Hu. rewrite nth_set_nth in Hu. destruct (Nat.eq_dec t u) as [<-|N]; [|exact (I _ _ _ _ Hu Hq Ih)].
  rewrite E in Hu. injection Hu as <-.
  destruct p as [hh pc]. destruct a as [j| |j|j|i1 j|]; destruct pc as [|r|i0 v0]; cbn [n_do n_pc n_held] in D; try discriminate;
    repeat match type of D with context [match ?x with _ => _ end] => destruct x eqn:?; try discriminate end;
    injection D as <- <- <-; cbn [n_pc n_held] in Hq, Ih; try discriminate.
  - injection Hq as <-. apply R. eexists. split; [exact E|exact Ih].
  - exact (I _ _ _ _ E Hq Ih).
Qed.
Lemma rising_run : forall rank acts s s', rising rank acts s -> RInv rank s -> n_run acts s = Some s' -> RInv rank s'.
Proof.
  induction acts as [|[t a] acts IH]; intros s s' F I H; cbn [n_run] in H; [injection H as <-; auto|].
  cbn [rising] in F. destruct F as [F1 F2]. destruct (n_step t a s) as [[o s1]|] eqn:S; [|discriminate].
  eapply IH; [exact F2| |exact H]. eapply rising_step; eauto.
Qed.
Lemma rising_new : forall rank n m, RInv rank (n_new n m).
Proof. intros rank n m t p k h H Q. apply nth_error_In in H. apply repeat_spec in H. subst p. discriminate. Qed.

(** the waiting thread whose lock has the highest rank *)
Lemma highest : forall (rank : nat -> nat) (l : list nthr), (exists t p k, nth_error l t = Some p /\ n_pc p = NSpin k) ->
  exists t p k, nth_error l t = Some p /\ n_pc p = NSpin k /\ forall u q j, nth_error l u = Some q -> n_pc q = NSpin j -> rank j <= rank k.
Proof.
  intros rank. induction l as [|x l IH]; intros (t & p & k & H & Q); [destruct t; discriminate|].
  assert (D : (exists t p k, nth_error l t = Some p /\ n_pc p = NSpin k) \/ ~ (exists t p k, nth_error l t = Some p /\ n_pc p = NSpin k)).
  { clear. induction l as [|y l IH].
    - right. intros (t & p & k & H & _). destruct t; discriminate.
    - destruct (n_pc y) eqn:E.
      2:{ left. exists 0, y, k. auto. }
      all: destruct IH as [(t & p & k & H & Q)|IH]; [left; exists (S t), p, k; auto|right]; intros (t & p & k & H & Q); destruct t as [|t]; cbn in H; [injection H as <-; congruence|apply IH; eauto]. }
  destruct D as [D|D].
  - destruct (IH D) as (t1 & p1 & k1 & H1 & Q1 & M1). destruct (n_pc x) as [|kx|] eqn:E.
    2:{ destruct (Nat.le_gt_cases (rank kx) (rank k1)) as [L|L].
        - exists (S t1), p1, k1. split; [exact H1|]. split; [exact Q1|]. intros [|u] q j Hu Hq; cbn in Hu; [injection Hu as <-; assert (j = kx) by congruence; subst; exact L|eauto].
        - exists 0, x, kx. split; [reflexivity|]. split; [exact E|]. intros [|u] q j Hu Hq; cbn in Hu; [injection Hu as <-; assert (j = kx) by congruence; subst; lia|].
          specialize (M1 _ _ _ Hu Hq). lia. }
    all: exists (S t1), p1, k1; split; [exact H1|]; split; [exact Q1|]; intros [|u] q j Hu Hq; cbn in Hu; [injection Hu as <-; congruence|eauto].
  - destruct t as [|t]; cbn in H; [|exfalso; apply D; eauto]. injection H as <-. exists 0, x, k. split; [reflexivity|]. split; [exact Q|].
    intros [|u] q j Hu Hq; cbn in Hu; [injection Hu as <-; assert (j = k) by congruence; subst; lia|]. exfalso. apply D. eauto.
Qed.

(** a thread that waits for a lock it holds itself *)
Lemma self_wait_step : forall t a s o s' u k, calm1 t a s -> NInv s -> MInv0 s -> holds_k s u k -> waits_k s u k ->
  n_step t a s = Some (o, s') -> holds_k s' u k /\ waits_k s' u k.
Proof.
  intros t a s o s' u k C I M (p & Hp & Ik) (p' & Hp' & W) H. assert (p' = p) by congruence. subst p'. clear Hp'.
  destruct (Nat.eq_dec u t) as [->|N].
  - unfold n_step in H. rewrite Hp in H. destruct p as [h pc]. cbn [n_pc n_held] in *. subst pc.
    assert (V : nth_error (n_value s) k = Some true).
    { pose proof (I k) as Q. assert (0 < count_occ Nat.eq_dec (allheld s) k).
      { apply count_occ_In. apply in_flat_map. exists (mk_nthr h (NSpin k)). split; [eapply nth_error_In; exact Hp|exact Ik]. }
      destruct (nth_error (n_value s) k) as [[]|]; cbn [b2n] in Q; [reflexivity|lia|lia]. }
    destruct a; cbn [n_do n_pc] in H; try discriminate. rewrite V in H. injection H as <- <-.
    split; eexists; (split; [cbn [n_thr]; apply nth_error_set_nth_eq; apply nth_error_Some; congruence|]); auto.
  - pose proof (step_other _ _ _ _ _ u H N) as E. split; exists p; (split; [rewrite E; exact Hp|]); auto.
Qed.
Lemma self_wait_run : forall acts s s' u k, calm acts s -> NInv s -> MInv0 s -> holds_k s u k -> waits_k s u k ->
  n_run acts s = Some s' -> holds_k s' u k /\ waits_k s' u k.
Proof.
  induction acts as [|[t a] acts IH]; intros s s' u k F I M A B H; cbn [n_run] in H; [injection H as <-; auto|].
  cbn [calm] in F. destruct F as [F1 F2]. destruct (n_step t a s) as [[o s1]|] eqn:S; [|discriminate].
  assert (C : calm1 t a s) by exact F1. destruct (self_wait_step _ _ _ _ _ _ _ C I M A B S) as [A1 B1].
  eapply IH; [exact F2| | |exact A1|exact B1|exact H]; [eapply step_inv|eapply step_moving]; eauto.
Qed.
