(** The mutexes of the shards make the sections take effect one after the other. *)
From Coq Require Import ZArith List Bool Arith Lia Ascii Permutation.
From Verif Require Import Base ModelTypes ModelReducer SpecReducer ModelSeparator SpecSeparator ModelAggregator SpecAggregator ModelRegistry RegProofs ModelMt ModelMulti SpecMulti MultiProofs MultiRun ModelShards SpecShards.
Import ListNotations.

Lemma nth_set {A} i j (x : A) l y : nth_error l i = Some y -> nth_error (set_nth i x l) j = if j =? i then Some x else nth_error l j.
Proof.
  intros E. destruct (Nat.eqb_spec j i) as [->|N]; [apply set_nth_same; apply nth_error_Some; congruence|]. apply set_nth_other. auto.
Qed.
Lemma set_nth_self {A} i (x : A) l : nth_error l i = Some x -> set_nth i x l = l.
Proof. revert i. induction l as [|y l IH]; intros [|i] E; simpl in *; try congruence. now rewrite IH. Qed.

Section Machine.
  Context {S C R : Type}.
  Variables (at_ : C -> nat) (body : C -> prog S R).
  Notation alone := (fun c => eval (body c)).
  Notation mth := (mthread S C R).

  Lemma in_turn_app os l1 os1 l2 os2 : in_turn at_ alone os l1 os1 -> in_turn at_ alone os1 l2 os2 -> in_turn at_ alone os (l1 ++ l2) os2.
  Proof. induction 1; simpl; auto. intros H2. econstructor; eauto. Qed.
  Lemma in_turn_length os l os1 : in_turn at_ alone os l os1 -> length os1 = length os.
  Proof. induction 1; auto. now rewrite IHin_turn, set_nth_length. Qed.
  Lemma by_thread_app i (l m : list (nat * (C * R))) : by_thread i (l ++ m) = by_thread i l ++ by_thread i m.
  Proof. unfold by_thread. now rewrite filter_app, map_app. Qed.

  (** Thread [i] is inside a section on shard [j]. *)
  Definition at_shard (ts : list mth) (i j : nat) (c : C) (p : prog S R) : Prop :=
    exists t, nth_error ts i = Some t /\ inside t = Some (c, p) /\ at_ c = j.
  Record HInv (os0 : list S) (ps : list (list C)) (log : list (nat * (C * R))) (s : hstate S C R) : Prop := {
    hi_len : length (h_threads s) = length ps;
    hi_locks : length (h_locks s) = length os0;
    hi_objs : length (h_objs s) = length os0;
    hi_prog : forall i t p, nth_error (h_threads s) i = Some t -> nth_error ps i = Some p ->
      map fst (by_thread i log) ++ running t ++ todo t = p /\ map snd (by_thread i log) = got t;
    hi_thr : forall x, In x log -> fst x < length ps;
    hi_in : forall i j c p, at_shard (h_threads s) i j c p -> j < length os0;
    hi_seq : exists os, in_turn at_ alone os0 (map snd log) os /\
      forall j, j < length os0 ->
        (nth_error (h_locks s) j = Some false /\ nth_error (h_objs s) j = nth_error os j /\ forall i c p, ~ at_shard (h_threads s) i j c p) \/
        (nth_error (h_locks s) j = Some true /\ exists i c p o ol, at_shard (h_threads s) i j c p /\ nth_error (h_objs s) j = Some o /\
           nth_error os j = Some ol /\ eval p o = eval (body c) ol /\ forall i' c' p', at_shard (h_threads s) i' j c' p' -> i' = i) }.

  Lemma init_hinv os ps : HInv os ps [] (h_init os ps).
  Proof.
    unfold h_init. constructor; cbn [h_threads h_locks h_objs].
    - apply map_length.
    - apply repeat_length.
    - reflexivity.
    - intros i t p H E. rewrite nth_error_map, E in H. injection H as <-. cbn. auto.
    - intros x [].
    - intros i j c p (t & H & I & _). rewrite nth_error_map in H. destruct (nth_error ps i); [|discriminate]. injection H as <-. discriminate.
    - exists os. split; [constructor|]. intros j Hj. left. split; [|split; [reflexivity|]].
      + rewrite nth_error_repeat by auto. reflexivity.
      + intros i c p (t & H & I & _). rewrite nth_error_map in H. destruct (nth_error ps i); [|discriminate]. injection H as <-. discriminate.
  Qed.

  (** Changing one thread: who is inside which section. *)
  Lemma at_shard_set ts i t t' i' j c p : nth_error ts i = Some t ->
    (at_shard (set_nth i t' ts) i' j c p <-> (i' = i /\ inside t' = Some (c, p) /\ at_ c = j) \/ (i' <> i /\ at_shard ts i' j c p)).
  Proof.
    intros E. unfold at_shard. rewrite (nth_set _ _ _ _ _ E). destruct (Nat.eqb_spec i' i) as [->|N].
    - split; [intros (u & X & Y & Z); injection X as <-; auto|]. intros [(_ & X & Y)|[X _]]; [eauto|congruence].
    - split; [intros X; right; auto|]. intros [(X & _)|[_ X]]; [congruence|auto].
  Qed.

  Lemma step_hinv os0 ps log s s' : HInv os0 ps log s -> hstep at_ body s s' -> exists tail, HInv os0 ps (log ++ tail) s'.
  Proof.
    intros [L LL LO P X IN (os & Q & M)] St.
    inversion St as [lks objs ts i c cs g Ht Hl|lks objs ts i c cs f g o o' p' Ht Ho Hf|lks objs ts i c cs r g Ht]; subst; cbn [h_threads h_locks h_objs] in *.
    - (* acquire *)
      exists []. rewrite app_nil_r. constructor; cbn [h_threads h_locks h_objs]; rewrite ?set_nth_length; auto.
      + intros k t p H E. rewrite (nth_set _ _ _ _ _ Ht) in H. destruct (Nat.eqb_spec k i) as [->|N]; [|eauto]. injection H as <-.
        destruct (P i _ p Ht E) as [A B]. cbn in *. auto.
      + intros i' j c' p' H. apply (at_shard_set _ _ _ _ _ _ _ _ Ht) in H as [(_ & H & <-)|(_ & H)]; [|eauto]. cbn in H. injection H as <- <-.
        rewrite <- LL. apply nth_error_Some. congruence.
      + exists os. split; auto. intros j Hj. rewrite (nth_set _ _ _ _ _ Hl). destruct (Nat.eqb_spec j (at_ c)) as [->|N].
        * right. split; [reflexivity|]. destruct (M _ Hj) as [(_ & A & B)|(A & _)]; [|congruence].
          destruct (nth_error objs (at_ c)) as [o|] eqn:EO; [|apply nth_error_None in EO; lia]. exists i, c, (body c), o, o.
          split; [apply (at_shard_set _ _ _ _ _ _ _ _ Ht); left; cbn; auto|]. split; auto. split; [congruence|]. split; [reflexivity|].
          intros i' c' p' H. apply (at_shard_set _ _ _ _ _ _ _ _ Ht) in H as [(H & _)|(_ & H)]; [auto|]. destruct (B _ _ _ H).
        * destruct (M _ Hj) as [(A1 & A2 & A3)|(A1 & i0 & c0 & p0 & o0 & ol & A2 & A3 & A4 & A5 & A6)]; [left|right]; (split; [auto|]).
          -- split; [auto|]. intros i' c' p' H. apply (at_shard_set _ _ _ _ _ _ _ _ Ht) in H as [(_ & H & H2)|(_ & H)]; [|exact (A3 _ _ _ H)]. cbn in H. injection H as <- <-. congruence.
          -- exists i0, c0, p0, o0, ol. split; [|split; [auto|split; [auto|split; [auto|]]]].
             ++ apply (at_shard_set _ _ _ _ _ _ _ _ Ht). right. split; [|auto]. intros ->. destruct A2 as (t & B1 & B2 & _). rewrite Ht in B1. injection B1 as <-. discriminate.
             ++ intros i' c' p' H. apply (at_shard_set _ _ _ _ _ _ _ _ Ht) in H as [(_ & H & H2)|(_ & H)]; [cbn in H; injection H as <- <-; congruence|eauto].
    - (* statement *)
      assert (AT : at_shard ts i (at_ c) c (Do f)) by (eexists; eauto).
      assert (J : at_ c < length os0) by (rewrite <- LO; apply nth_error_Some; congruence).
      exists []. rewrite app_nil_r. constructor; cbn [h_threads h_locks h_objs]; rewrite ?set_nth_length; auto.
      + intros k t p H E. rewrite (nth_set _ _ _ _ _ Ht) in H. destruct (Nat.eqb_spec k i) as [->|N]; [|eauto]. injection H as <-.
        destruct (P i _ p Ht E) as [A B]. cbn in *. auto.
      + intros i' j c' q H. apply (at_shard_set _ _ _ _ _ _ _ _ Ht) in H as [(_ & H & <-)|(_ & H)]; [|eauto]. cbn in H. injection H as <- <-. exact J.
      + exists os. split; auto. intros j Hj. rewrite (nth_set _ _ _ _ _ Ho). destruct (Nat.eqb_spec j (at_ c)) as [->|N].
        * right. destruct (M _ Hj) as [(_ & _ & B)|(A1 & i0 & c0 & p0 & o0 & ol & A2 & A3 & A4 & A5 & A6)]; [destruct (B _ _ _ AT)|]. split; auto.
          pose proof (A6 _ _ _ AT) as <-. destruct A2 as (t & B1 & B2 & _). rewrite Ht in B1. injection B1 as <-. cbn in B2. injection B2 as <- <-.
          rewrite Ho in A3. injection A3 as <-. cbn [eval] in A5. rewrite Hf in A5. exists i, c, p', o', ol.
          split; [apply (at_shard_set _ _ _ _ _ _ _ _ Ht); left; cbn; auto|]. split; auto. split; auto. split; auto.
          intros i' c' q H. apply (at_shard_set _ _ _ _ _ _ _ _ Ht) in H as [(H & _)|(_ & H)]; [auto|eauto].
        * destruct (M _ Hj) as [(A1 & A2 & A3)|(A1 & i0 & c0 & p0 & o0 & ol & A2 & A3 & A4 & A5 & A6)]; [left|right]; (split; [auto|]).
          -- split; [auto|]. intros i' c' q H. apply (at_shard_set _ _ _ _ _ _ _ _ Ht) in H as [(_ & H & H2)|(_ & H)]; [|exact (A3 _ _ _ H)]. cbn in H. injection H as <- <-. congruence.
          -- exists i0, c0, p0, o0, ol. split; [|split; [auto|split; [auto|split; [auto|]]]].
             ++ apply (at_shard_set _ _ _ _ _ _ _ _ Ht). right. split; [|auto]. intros ->. destruct A2 as (t & B1 & B2 & B3). rewrite Ht in B1. injection B1 as <-. cbn in B2. congruence.
             ++ intros i' c' q H. apply (at_shard_set _ _ _ _ _ _ _ _ Ht) in H as [(_ & H & H2)|(_ & H)]; [cbn in H; injection H as <- <-; congruence|eauto].
    - (* return *)
      assert (AT : at_shard ts i (at_ c) c (Ret r)) by (eexists; eauto).
      assert (J : at_ c < length os0) by eauto.
      assert (XI : i < length ps) by (rewrite <- L; apply nth_error_Some; congruence).
      destruct (nth_error lks (at_ c)) as [b|] eqn:Hl; [|apply nth_error_None in Hl; lia].
      destruct (M _ J) as [(_ & _ & B)|(A1 & i0 & c0 & p0 & o0 & ol & A2 & A3 & A4 & A5 & A6)]; [destruct (B _ _ _ AT)|].
      pose proof (A6 _ _ _ AT) as <-. destruct A2 as (t & B1 & B2 & _). rewrite Ht in B1. injection B1 as <-. cbn in B2. injection B2 as <- <-. cbn [eval] in A5.
      exists [(i, (c, r))]. constructor; cbn [h_threads h_locks h_objs]; rewrite ?set_nth_length; auto.
      + intros k t p H E. rewrite (nth_set _ _ _ _ _ Ht) in H. rewrite by_thread_app, !map_app. unfold by_thread at 2 4. cbn [filter fst].
        rewrite (Nat.eqb_sym i k). destruct (Nat.eqb_spec k i) as [->|N].
        * injection H as <-. destruct (P i _ p Ht E) as [U V]. cbn in *. rewrite V. split; [|reflexivity]. rewrite <- U, <- app_assoc. reflexivity.
        * cbn. rewrite !app_nil_r. eauto.
      + intros x H. apply in_app_or in H as [H|[<-|[]]]; auto.
      + intros i' j c' q H. apply (at_shard_set _ _ _ _ _ _ _ _ Ht) in H as [(_ & H & <-)|(_ & H)]; [discriminate|eauto].
      + exists (set_nth (at_ c) o0 os). split.
        * rewrite map_app. apply (in_turn_app _ _ os); [exact Q|]. econstructor; [exact A4|symmetry; exact A5|constructor].
        * intros j Hj. rewrite (nth_set _ _ _ _ _ Hl), (nth_set _ _ _ _ _ A4). destruct (Nat.eqb_spec j (at_ c)) as [->|N].
          -- left. split; auto. split; auto. intros i' c' q H. apply (at_shard_set _ _ _ _ _ _ _ _ Ht) in H as [(_ & H & _)|(N & H)]; [discriminate|]. apply N. eauto.
          -- destruct (M _ Hj) as [(D1 & D2 & D3)|(D1 & i1 & c1 & p1 & o1 & ol1 & D2 & D3 & D4 & D5 & D6)]; [left|right]; (split; [auto|]).
             ++ split; [auto|]. intros i' c' q H. apply (at_shard_set _ _ _ _ _ _ _ _ Ht) in H as [(_ & H & _)|(_ & H)]; [discriminate|exact (D3 _ _ _ H)].
             ++ exists i1, c1, p1, o1, ol1. split; [|split; [auto|split; [auto|split; [auto|]]]].
                ** apply (at_shard_set _ _ _ _ _ _ _ _ Ht). right. split; [|auto]. intros ->. destruct D2 as (t & E1 & E2 & E3). rewrite Ht in E1. injection E1 as <-. cbn in E2. congruence.
                ** intros i' c' q H. apply (at_shard_set _ _ _ _ _ _ _ _ Ht) in H as [(_ & H & _)|(_ & H)]; [discriminate|eauto].
  Qed.

  Lemma steps_hinv os0 ps log s s' : HInv os0 ps log s -> hsteps at_ body s s' -> exists tail, HInv os0 ps (log ++ tail) s'.
  Proof.
    intros I H. induction H as [s|s s1 s2 H IH St]; [exists []; now rewrite app_nil_r|]. destruct (IH I) as [t1 I1].
    destruct (step_hinv _ _ _ _ _ I1 St) as [t2 I2]. exists (t1 ++ t2). now rewrite app_assoc.
  Qed.
  Lemma hinv_explains os0 ps log s : HInv os0 ps log s -> explains at_ alone os0 ps log s.
  Proof.
    intros [L LL LO P X IN (os & Q & M)]. split; auto. split; auto. split; auto. exists os. split; auto. intros j Hj.
    destruct (lt_dec j (length os0)) as [K|K].
    - destruct (M _ K) as [(_ & A & _)|(_ & i & c & p & o & ol & (t & B1 & B2 & B3) & _)]; auto. exfalso. apply (Hj _ _ B1). unfold running. rewrite B2. left. auto.
    - rewrite !(proj2 (nth_error_None _ _)); auto; [rewrite (in_turn_length _ _ _ Q)|]; lia.
  Qed.

  (** Somebody can always go on. *)
  Definition unfinished (t : mth) : Prop := todo t <> [] \/ inside t <> None.
  Lemma progress os0 ps log s : HInv os0 ps log s -> Forall (fun c => at_ c < length os0) (concat ps) -> Exists unfinished (h_threads s) -> exists s', hstep at_ body s s'.
  Proof.
    intros [L LL LO P X IN (os & Q & M)] HA E. destruct s as [lks objs ts]. cbn [h_threads h_locks h_objs] in *.
    assert (GO : forall i j c p, at_shard ts i j c p -> exists s', hstep at_ body (mk_hstate lks objs ts) s').
    { intros i j c p A. pose proof (IN _ _ _ _ A) as J. destruct A as ([td ins g] & A1 & A2 & A3). cbn in A2. subst ins j. destruct p as [r|f]; [eexists; eapply h_return; eauto|].
      destruct (nth_error objs (at_ c)) as [o|] eqn:EO; [|apply nth_error_None in EO; lia]. destruct (f o) as [o' p'] eqn:F. eexists. eapply h_body; eauto. }
    apply Exists_exists in E as (t & Ht & U). apply In_nth_error in Ht as [i Hi]. destruct t as [td ins g]. destruct ins as [[c p]|].
    { apply (GO i (at_ c) c p). eexists. split; [exact Hi|]. auto. }
    destruct td as [|c td]; [destruct U as [U|U]; cbn in U; congruence|].
    assert (J : at_ c < length os0).
    { assert (exists q, nth_error ps i = Some q) as [q Hq].
      { destruct (nth_error ps i) eqn:Eq; eauto. apply nth_error_None in Eq. assert (i < length ts) by (apply nth_error_Some; congruence). lia. }
      destruct (P _ _ _ Hi Hq) as [V _]. cbn in V. rewrite Forall_forall in HA. apply HA. apply in_concat. exists q. split; [eapply nth_error_In; eauto|].
      rewrite <- V. apply in_or_app. right. now left. }
    destruct (M _ J) as [(A & _)|(_ & i0 & c0 & p0 & o0 & ol & A & _)]; [|eauto]. eexists. eapply h_acquire; eauto.
  Qed.
End Machine.
