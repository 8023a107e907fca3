(** C100: several spinlocks. *)
From Coq Require Import ZArith List Bool Arith Lia.
From Verif Require Import Base ModelReducer ListFacts ModelSpins SpecSpins SpinsProofs.
Import ListNotations.

(** No lock is ever in two hands, nor twice in one, whatever the threads do with the other locks; moves of locks that are in
    nobody's hands included. *)
Theorem C100_exclusive : forall locks threads acts s, calm acts (n_new locks threads) -> n_run acts (n_new locks threads) = Some s ->
  (forall t u k, holds_k s t k -> holds_k s u k -> t = u) /\
  (forall t p, nth_error (n_thr s) t = Some p -> NoDup (n_held p)).
Proof.
  intros L T acts s C R. destruct (new_inv L T) as [I0 M0]. destruct (run_inv _ _ _ C I0 M0 R) as [I _].
  assert (B : forall k, count_occ Nat.eq_dec (flat_map n_held (n_thr s)) k <= 1).
  { intros k. pose proof (I k) as Q. unfold allheld in Q. rewrite Q. destruct (nth_error (n_value s) k) as [[]|]; cbn; lia. }
  split.
  - intros t u k (p & Hp & Ip) (q & Hq & Iq). exact (held_count _ k t u p q (B k) Hp Hq Ip Iq).
  - intros t p Hp. apply (NoDup_count_occ Nat.eq_dec). intros k. specialize (B k).
    destruct (nth_error_split _ _ Hp) as (a & b & E & _). rewrite E in B. rewrite flat_map_app in B. cbn [flat_map] in B. rewrite !count_occ_app in B. lia.
Qed.
Print Assumptions C100_exclusive.

(** try_lock of k succeeds exactly when nobody holds k; the next exchange of a waiting thread gets its lock exactly when
    nobody holds it.  What is held of the other locks does not matter. *)
Theorem C100_free_is_taken : forall locks threads acts s t k, calm acts (n_new locks threads) -> n_run acts (n_new locks threads) = Some s -> k < locks ->
  (forall p, nth_error (n_thr s) t = Some p -> n_pc p = NOut ->
     exists b s', n_step t (NTry k) s = Some (Some b, s') /\ (b = true <-> free_k s k) /\ (b = true -> holds_k s' t k) /\ (b = false -> n_thr s' = n_thr s)) /\
  (waits_k s t k -> exists s', n_step t NXchg s = Some (None, s') /\ (free_k s k -> holds_k s' t k /\ ~ waits_k s' t k) /\
                               (~ free_k s k -> waits_k s' t k)).
Proof.
  intros L T acts s t k C R K. destruct (new_inv L T) as [I0 M0]. destruct (run_inv _ _ _ C I0 M0 R) as [I _].
  assert (LV : length (n_value s) = L).
  { assert (G : forall acts s s', n_run acts s = Some s' -> length (n_value s') = length (n_value s)).
    { clear. induction acts as [|[t a] acts IH]; intros s s' H; cbn [n_run] in H; [injection H as <-; reflexivity|].
      destruct (n_step t a s) as [[o s1]|] eqn:E; [|discriminate]. rewrite (IH _ _ H). eapply step_value_length; exact E. }
    rewrite (G _ _ _ R). apply repeat_length. }
  destruct (nth_error (n_value s) k) as [b|] eqn:V; [|apply nth_error_None in V; lia].
  assert (F : b = false <-> free_k s k).
  { split; intros H; [|exact (free_flag s k b I H V)]. intros u (p & Hp & Ip). pose proof (I k) as Q. rewrite V in Q. subst b. cbn in Q.
    assert (0 < count_occ Nat.eq_dec (allheld s) k) by (apply count_occ_In; apply in_flat_map; exists p; split; [eapply nth_error_In; exact Hp|exact Ip]). lia. }
  split.
  - intros p Hp Q. destruct p as [h pc]. cbn [n_pc] in Q. subst pc. unfold n_step. rewrite Hp. cbn [n_do n_pc]. rewrite V. destruct b.
    + eexists _, _. split; [reflexivity|]. split; [split; [discriminate|intros H; apply F in H; discriminate]|]. split; [discriminate|].
      intros _. cbn [n_thr]. destruct (nth_error_split _ _ Hp) as (x & y & E & <-). rewrite E. rewrite set_nth_app. reflexivity.
    + eexists _, _. split; [reflexivity|]. split; [split; [intros _; apply F; reflexivity|reflexivity]|]. split; [|discriminate].
      intros _. eexists. cbn [n_thr]. split; [apply nth_error_set_nth_eq; apply nth_error_Some; congruence|]. left. reflexivity.
  - intros (p & Hp & Q). destruct p as [h pc]. cbn [n_pc] in Q. subst pc. unfold n_step. rewrite Hp. cbn [n_do n_pc]. rewrite V. destruct b.
    + eexists. split; [reflexivity|]. split; [intros H; apply F in H; discriminate|]. intros _.
      eexists. cbn [n_thr]. split; [apply nth_error_set_nth_eq; apply nth_error_Some; congruence|reflexivity].
    + eexists. split; [reflexivity|]. split.
      * intros _. split.
        -- eexists. cbn [n_thr]. split; [apply nth_error_set_nth_eq; apply nth_error_Some; congruence|left; reflexivity].
        -- intros (q & Hq & W). cbn [n_thr] in Hq. rewrite nth_error_set_nth_eq in Hq by (apply nth_error_Some; congruence). injection Hq as <-. discriminate.
      * intros H. exfalso. apply H. apply F. reflexivity.
Qed.
Print Assumptions C100_free_is_taken.

(** Threads that take their locks in rising rank cannot all wait for each other: when every thread that holds a lock is itself
    waiting, some waiting thread gets its lock at its next exchange. *)
Theorem C100_rising_order : forall rank locks threads acts s, calm acts (n_new locks threads) -> rising rank acts (n_new locks threads) ->
  n_run acts (n_new locks threads) = Some s ->
  (exists t k, waits_k s t k) -> (forall t k, holds_k s t k -> exists j, waits_k s t j) ->
  exists t k s', waits_k s t k /\ free_k s k /\ n_step t NXchg s = Some (None, s') /\ holds_k s' t k.
Proof.
  intros rank L T acts s C O R (t0 & k0 & p0 & H0 & Q0) A.
  assert (RI : RInv rank s) by (eapply rising_run; [exact O|apply rising_new|exact R]).
  destruct (highest rank (n_thr s)) as (t & p & k & H & Q & M); [eauto|].
  assert (W : waits_k s t k) by (exists p; auto).
  assert (F : free_k s k).
  { intros u Hu. destruct (A u k Hu) as (j & q & Hq & Wq). destruct Hu as (q' & Hq' & Ik). assert (q' = q) by congruence. subst q'.
    pose proof (RI _ _ _ _ Hq Wq Ik). pose proof (M _ _ _ Hq Wq). lia. }
  destruct (new_inv L T) as [I0 M0]. destruct (run_inv _ _ _ C I0 M0 R) as [I _].
  assert (K : k < L).
  { assert (P : forall acts s s', n_run acts s = Some s' -> length (n_value s') = length (n_value s) /\
        ((forall t k, waits_k s t k -> k < length (n_value s)) -> forall t k, waits_k s' t k -> k < length (n_value s'))).
    { clear. induction acts as [|[t a] acts IH]; intros s s' H; cbn [n_run] in H; [injection H as <-; auto|].
      destruct (n_step t a s) as [[o s1]|] eqn:E; [|discriminate]. destruct (IH _ _ H) as [L1 P1]. destruct (step_value_length _ _ _ _ _ E) as [L2 _].
      split; [congruence|]. intros W. apply P1. intros u k (p & Hp & Q). rewrite L2. destruct (Nat.eq_dec u t) as [->|N].
      - unfold n_step in E. destruct (nth_error (n_thr s) t) as [[h pc]|] eqn:Et; [|discriminate].
        destruct (n_do a (n_value s) (mk_nthr h pc)) as [[[v p'] o']|] eqn:D; [|discriminate]. injection E as <- <-. cbn [n_thr] in Hp.
        rewrite nth_error_set_nth_eq in Hp by (apply nth_error_Some; congruence). injection Hp as <-.
        destruct a as [j| |j|j|i1 j|]; destruct pc as [|r|i0 v0]; cbn [n_do n_pc n_held] in D; try discriminate;
          repeat match type of D with context [match ?x with _ => _ end] => destruct x eqn:?; try discriminate end;
          injection D as <- <- <-; cbn [n_pc n_held] in Q; try discriminate.
        + injection Q as <-. apply nth_error_Some. congruence.
        + injection Q as <-. apply (W t r). eexists. split; [exact Et|reflexivity].
      - rewrite (step_other _ _ _ _ _ u E N) in Hp. apply (W u k). exists p. auto. }
    destruct (P _ _ _ R) as [LL PP]. specialize (PP (fun t k => ltac:(intros (q & Hq & Wq); apply nth_error_In in Hq; apply repeat_spec in Hq; subst q; discriminate))).
    specialize (PP t k W). rewrite LL in PP. cbn [n_new n_value] in PP. rewrite repeat_length in PP. exact PP. }
  destruct (C100_free_is_taken L T acts s t k C R K) as [_ X]. destruct (X W) as (s' & S & G & _). exists t, k, s'. destruct (G F) as [G1 _]. auto.
Qed.
Print Assumptions C100_rising_order.

(** spinlock_n: every key has one of the N locks, the same every time. *)
Theorem C100_get : forall N hash, N <> 0 -> n_get N hash < N.
Proof.
  intros N h H. unfold n_get. pose proof (Z.mod_pos_bound (u64 h) (Z.of_nat N) ltac:(lia)). lia.
Qed.
Print Assumptions C100_get.

(** x_i = std::move(x_j) without another step in between: nobody gets or loses a lock by it; try_lock() of the target then succeeds exactly if nobody
    held the source, and that of any other lock, the source included, exactly if nobody holds it. *)
Theorem C100_moved : forall locks threads acts s t i j s1 s2, calm acts (n_new locks threads) -> n_run acts (n_new locks threads) = Some s ->
  n_step t (NLoad i j) s = Some (None, s1) -> n_step t NStore s1 = Some (None, s2) ->
  (forall u k, holds_k s2 u k <-> holds_k s u k) /\
  (forall u p k, nth_error (n_thr s2) u = Some p -> n_pc p = NOut -> k < locks ->
     exists b s3, n_step u (NTry k) s2 = Some (Some b, s3) /\ (b = true <-> free_k s (if Nat.eq_dec i k then j else k))).
Proof.
  intros L T acts s t i j s1 s2 C R E1 E2. destruct (new_inv L T) as [I0 M0]. destruct (run_inv _ _ _ C I0 M0 R) as [I _].
  assert (LV : length (n_value s) = L).
  { assert (G : forall acts s s', n_run acts s = Some s' -> length (n_value s') = length (n_value s)).
    { clear. induction acts as [|[t a] acts IH]; intros s s' H; cbn [n_run] in H; [injection H as <-; reflexivity|].
      destruct (n_step t a s) as [[o s1]|] eqn:E; [|discriminate]. rewrite (IH _ _ H). eapply step_value_length; exact E. }
    rewrite (G _ _ _ R). apply repeat_length. }
  assert (F : forall k b, nth_error (n_value s) k = Some b -> (negb b = true <-> free_k s k)).
  { intros k b V. split; intros H; [|rewrite (free_flag s k b I H V); reflexivity]. intros u (p & Hp & Ip). pose proof (I k) as Q. rewrite V in Q. destruct b; [discriminate|]. cbn in Q.
    assert (0 < count_occ Nat.eq_dec (allheld s) k) by (apply count_occ_In; apply in_flat_map; exists p; split; [eapply nth_error_In; exact Hp|exact Ip]). lia. }
  unfold n_step in E1. destruct (nth_error (n_thr s) t) as [[h pc]|] eqn:P; [|discriminate]. unfold n_do in E1. cbn [n_pc n_held] in E1.
  destruct pc; try discriminate. destruct (nth_error (n_value s) i) as [bi|] eqn:VI; [|discriminate]. destruct (nth_error (n_value s) j) as [bj|] eqn:VJ; [|discriminate].
  injection E1 as <-. unfold n_step in E2. cbn [n_thr n_value] in E2. rewrite nth_error_set_nth_eq in E2 by (apply nth_error_Some; congruence).
  cbn [n_do n_pc n_held] in E2. injection E2 as <-. cbn [n_thr n_value]. split.
  - intros u k. unfold holds_k. cbn [n_thr]. rewrite !nth_set_nth, P. destruct (Nat.eq_dec t t) as [_|]; [|congruence].
    destruct (Nat.eq_dec t u) as [<-|]; [|reflexivity]. rewrite P. split; intros (p & Hp & Hk); injection Hp as <-; eexists; (split; [reflexivity|exact Hk]).
  - intros u [h' pc'] k Hp Q K. cbn [n_pc] in Q. subst pc'. unfold n_step. cbn [n_thr n_value]. rewrite Hp. cbn [n_do n_pc n_held]. rewrite nth_set_nth, VI.
    destruct (Nat.eq_dec i k) as [<-|N].
    + destruct bj eqn:B; eexists _, _; (split; [reflexivity|]); apply (F _ _ VJ).
    + destruct (nth_error (n_value s) k) as [b|] eqn:V; [|apply nth_error_None in V; lia].
      destruct b; eexists _, _; (split; [reflexivity|]); apply (F _ _ V).
Qed.
Print Assumptions C100_moved.
Example C100_moved_witness : exists s s1 s2, calm [(0, NLock 1); (0, NXchg); (1, NLock 2); (1, NXchg)] (n_new 3 2) /\
  n_run [(0, NLock 1); (0, NXchg); (1, NLock 2); (1, NXchg)] (n_new 3 2) = Some s /\ n_step 0 (NLoad 0 1) s = Some (None, s1) /\ n_step 0 NStore s1 = Some (None, s2) /\
  n_value s2 = [true; true; true] /\ ~ free_k s 1 /\ free_k s 0.
Proof.
  eexists _, _, _. split; [cbn; tauto|]. split; [vm_compute; reflexivity|]. split; [vm_compute; reflexivity|]. split; [vm_compute; reflexivity|]. split; [reflexivity|].
  split.
  - intros H. apply (H 0). eexists. split; [reflexivity|left; reflexivity].
  - intros t (p & Hp & Ip). destruct t as [|[|t]]; cbn in Hp; [injection Hp as <-|injection Hp as <-|destruct t; discriminate]; destruct Ip as [E|[]]; discriminate.
Qed.

(** A waiting thread that holds the lock it waits for waits for ever, whatever it and the others do. *)
Theorem C100_held_by_itself : forall locks threads acts more s s' t k, calm acts (n_new locks threads) -> n_run acts (n_new locks threads) = Some s ->
  holds_k s t k -> waits_k s t k -> calm more s -> n_run more s = Some s' -> waits_k s' t k.
Proof.
  intros L T acts more s s' t k C R A B C' R'. destruct (new_inv L T) as [I0 M0]. destruct (run_inv _ _ _ C I0 M0 R) as [I M].
  exact (proj2 (self_wait_run _ _ _ _ _ C' I M A B R')).
Qed.
Print Assumptions C100_held_by_itself.

(** That different keys have different locks, so that one thread may lock two keys, is false, whatever N: *)
Theorem C100_two_keys_refuted : forall N, N <> 0 -> (Z.of_nat N < 18446744073709551616)%Z ->
  exists a b s, a <> b /\ (0 <= a < 18446744073709551616)%Z /\ (0 <= b < 18446744073709551616)%Z /\
    n_run [(0, NLock (n_get N a)); (0, NXchg); (0, NLock (n_get N b))] (n_new N 1) = Some s /\
    forall more s', unmoved more -> n_run more s = Some s' -> waits_k s' 0 (n_get N b).
Proof.
  intros N N0 NM.
  assert (E : n_get N 0 = 0) by (unfold n_get; change (u64 0) with 0%Z; rewrite Zmod_0_l; reflexivity).
  assert (E' : n_get N (Z.of_nat N) = 0).
  { unfold n_get. replace (u64 (Z.of_nat N)) with (Z.of_nat N) by (unfold u64, two64; rewrite Z.mod_small; lia). rewrite Z_mod_same_full. reflexivity. }
  destruct N as [|n]; [congruence|].
  exists 0%Z, (Z.of_nat (S n)), (mk_spins (true :: repeat false n) [mk_nthr [0] (NSpin 0)]).
  split; [lia|]. split; [lia|]. split; [lia|]. rewrite E, E'.
  assert (R : n_run [(0, NLock 0); (0, NXchg); (0, NLock 0)] (n_new (S n) 1) = Some (mk_spins (true :: repeat false n) [mk_nthr [0] (NSpin 0)])) by reflexivity.
  split; [exact R|]. intros more s' U R'.
  eapply C100_held_by_itself; [|exact R| | |apply unmoved_calm; exact U|exact R'].
  - apply unmoved_calm. intros t a H. repeat (destruct H as [H|H]; [injection H as <- <-; exact I|]). contradiction.
  - eexists. split; [reflexivity|]. left. reflexivity.
  - eexists. split; reflexivity.
Qed.
Print Assumptions C100_two_keys_refuted.

(** That a move may be made at any time is false: with the target held, it lets a second thread in; ... *)
Theorem C100_move_target_refuted : exists s, n_run [(0, NLock 0); (0, NXchg); (1, NLoad 0 1); (1, NStore); (1, NLock 0); (1, NXchg)] (n_new 2 2) = Some s /\
  holds_k s 0 0 /\ holds_k s 1 0.
Proof. eexists. split; [vm_compute; reflexivity|]. split; eexists; (split; [reflexivity|left; reflexivity]). Qed.
Print Assumptions C100_move_target_refuted.
(** ... with the source held, it leaves the target locked with nobody to unlock it: lock() of it does not return, however
    often it tries. *)
Theorem C100_move_source_refuted : forall tries, exists s, n_run ([(0, NLock 1); (0, NXchg); (1, NLoad 0 1); (1, NStore); (0, NUnlock 1); (0, NLock 0)] ++ repeat (0, NXchg) tries) (n_new 2 2) = Some s /\
  free_k s 0 /\ waits_k s 0 0.
Proof.
  intros n. exists (mk_spins [true; false] [mk_nthr [] (NSpin 0); mk_nthr [] NOut]). split.
  - assert (G : forall n, n_run (repeat (0, NXchg) n) (mk_spins [true; false] [mk_nthr [] (NSpin 0); mk_nthr [] NOut]) = Some (mk_spins [true; false] [mk_nthr [] (NSpin 0); mk_nthr [] NOut])).
    { clear n. induction n as [|n IH]; [reflexivity|]. cbn [repeat n_run]. change (n_step 0 NXchg _) with (Some (@None bool, mk_spins [true; false] [mk_nthr [] (NSpin 0); mk_nthr [] NOut])). exact IH. }
    exact (G n).
  - split; [|eexists; split; reflexivity]. intros t (p & Hp & Ip). destruct t as [|[|t]]; cbn in Hp; [injection Hp as <-|injection Hp as <-|destruct t; discriminate]; contradiction.
Qed.
Print Assumptions C100_move_source_refuted.
(** ... and a move may find the target free when it begins and held when it ends. *)
Theorem C100_move_race_refuted : exists s, n_run [(1, NLoad 0 1); (0, NLock 0); (0, NXchg); (1, NStore); (2, NTry 0)] (n_new 2 3) = Some s /\
  holds_k s 0 0 /\ holds_k s 2 0.
Proof. eexists. split; [vm_compute; reflexivity|]. split; eexists; (split; [reflexivity|left; reflexivity]). Qed.
Print Assumptions C100_move_race_refuted.

(** Three locks, three threads, with a move between the uses; two threads take locks 0 and 2 in rising order, one of them
    waits for 2, held by the other; then the other waits for nothing and the first gets it. *)
Example C100_witness : exists s s', 
  let acts := [(2, NLoad 1 0); (0, NLock 0); (0, NXchg); (2, NStore); (1, NTry 2); (0, NLock 2); (0, NXchg); (2, NTry 1)] in
  calm acts (n_new 3 3) /\ rising (fun k => k) acts (n_new 3 3) /\ n_run acts (n_new 3 3) = Some s /\
  holds_k s 0 0 /\ waits_k s 0 2 /\ holds_k s 1 2 /\ holds_k s 2 1 /\
  n_run [(1, NUnlock 2); (0, NXchg)] s = Some s' /\ holds_k s' 0 2.
Proof.
  eexists _, _. cbv zeta. split.
  { cbn. repeat apply conj; try exact I.
    - intros t (p & Hp & Ip). destruct t as [|[|[|t]]]; cbn in Hp; try (injection Hp as <-; contradiction). destruct t; discriminate.
    - intros p i v Hp Q. injection Hp as <-. injection Q as <- <-. intros t (q & Hq & Iq). destruct t as [|[|[|t]]]; cbn in Hq; try (injection Hq as <-; cbn in Iq; intuition discriminate). destruct t; discriminate. }
  split.
  { cbn. repeat apply conj; try exact I; intros h (p & Hp & Ip); injection Hp as <-; cbn in Ip; [contradiction|]. destruct Ip as [<-|[]]. lia. }
  split; [vm_compute; reflexivity|].
  do 4 (split; [eexists; split; [reflexivity|]; (reflexivity || (left; reflexivity))|]).
  split; [vm_compute; reflexivity|]. eexists. split; [reflexivity|left; reflexivity].
Qed.
(** the hypotheses of the rising order: a thread holds 0 and waits for 1, a second one waits for 0; the first gets its lock *)
Example C100_rising_witness : exists s, 
  let acts := [(0, NLock 0); (0, NXchg); (1, NLock 0); (1, NXchg); (0, NLock 1)] in
  calm acts (n_new 2 2) /\ rising (fun k => k) acts (n_new 2 2) /\ n_run acts (n_new 2 2) = Some s /\
  (exists t k, waits_k s t k) /\ (forall t k, holds_k s t k -> exists j, waits_k s t j).
Proof.
  eexists. cbv zeta. split.
  { apply unmoved_calm. intros t a H. repeat (destruct H as [H|H]; [injection H as <- <-; exact I|]). contradiction. }
  split.
  { cbn. repeat apply conj; try exact I; intros h (p & Hp & Ip); injection Hp as <-; cbn in Ip; try contradiction. destruct Ip as [<-|[]]. lia. }
  split; [vm_compute; reflexivity|]. split; [exists 1, 0; eexists; split; reflexivity|].
  intros t k (p & Hp & Ip). destruct t as [|[|t]]; cbn in Hp; [|injection Hp as <-; contradiction|destruct t; discriminate].
  exists 1. eexists. split; [reflexivity|reflexivity].
Qed.
