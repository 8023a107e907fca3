(** Proofs about moved multi_aggregators. *)
From Coq Require Import ZArith List Bool Arith Lia.
From Verif Require Import Base ModelTypes ModelReducer ModelRegistry ModelMulti SpecMulti ModelMove SpecMove ListFacts.
Import ListNotations.

Section P.
  Variable ne : nat -> list Z -> list Z.
  Variable hash : name -> Z.

  Lemma ma_run_snoc : forall ops m outs m1 c r m2, ma_run ne hash m ops = Ok (outs, m1) -> ma_do ne hash c m1 = Ok (r, m2) ->
    ma_run ne hash m (ops ++ [c]) = Ok (outs ++ [r], m2).
  Proof.
    induction ops as [|o ops IH]; intros m outs m1 c r m2 H D; cbn [ma_run app] in *.
    - inversion H; subst. rewrite D. reflexivity.
    - destruct (ma_do ne hash o m) as [[x y]| |]; cbn [bind] in *; try discriminate.
      destruct (ma_run ne hash y ops) as [[xs z]| |] eqn:R; cbn [bind] in *; try discriminate.
      inversion H; subst. rewrite (IH _ _ _ _ _ _ R D). reflexivity.
  Qed.
  Lemma mv_run_app : forall a b xs, mv_run ne hash xs (a ++ b) =
    ('(r, ys) <- mv_run ne hash xs a ;; '(s, zs) <- mv_run ne hash ys b ;; Ok (r ++ s, zs)).
  Proof.
    induction a as [|o a IH]; intros b xs; cbn [mv_run app bind].
    - destruct (mv_run ne hash xs b) as [[s zs]| |]; reflexivity.
    - destruct (mv_do ne hash o xs) as [[r ys]| |]; cbn [bind]; try reflexivity.
      rewrite IH. destruct (mv_run ne hash ys a) as [[s zs]| |]; cbn [bind]; try reflexivity.
      destruct (mv_run ne hash zs b) as [[s1 zs1]| |]; reflexivity.
  Qed.

  Definition MvInv (xs : list multi) (t : tale) : Prop :=
    length (tl_holds t) = length xs /\
    (forall i, nth_error (tl_holds t) i = Some None -> exists m, nth_error xs i = Some m /\ mu_list m = []) /\
    (forall i k, nth_error (tl_holds t) i = Some (Some k) -> (k < length (tl_born t))%nat) /\
    (forall i j k, nth_error (tl_holds t) i = Some (Some k) -> nth_error (tl_holds t) j = Some (Some k) -> i = j) /\
    (forall p, In p (tl_calls t) -> (fst p < length (tl_born t))%nat) /\
    (forall k o, nth_error (tl_born t) k = Some o -> exists m,
       ma_run ne hash (ma_new o) (calls_of k t) = Ok (answers_of k t, m) /\
       forall i, nth_error (tl_holds t) i = Some (Some k) -> nth_error xs i = Some m).

  Lemma nth_snoc {A} (l : list A) x i y : nth_error (l ++ [x]) i = Some y ->
    nth_error l i = Some y \/ (i = length l /\ y = x).
  Proof.
    intros H. destruct (Nat.lt_ge_cases i (length l)).
    - rewrite nth_error_app1 in H by lia. auto.
    - rewrite nth_error_app2 in H by lia. destruct (i - length l)%nat eqn:E.
      + inversion H. right. split; [lia|reflexivity].
      + destruct n; discriminate.
  Qed.
  Lemma nth_snoc_l {A} (l : list A) x i y : nth_error l i = Some y -> nth_error (l ++ [x]) i = Some y.
  Proof. intros H. rewrite nth_error_app1; [exact H|]. apply nth_error_Some. rewrite H. discriminate. Qed.
  Lemma nth_snoc_last {A} (l : list A) x : nth_error (l ++ [x]) (length l) = Some x.
  Proof. rewrite nth_error_app2 by lia. rewrite Nat.sub_diag. reflexivity. Qed.
  Lemma filter_none {A} (f : A -> bool) l : (forall x, In x l -> f x = false) -> filter f l = [].
  Proof. induction l as [|a l IH]; intros H; cbn; [reflexivity|]. rewrite (H a) by (left; reflexivity). apply IH. intros x X. apply H. right. exact X. Qed.
  Lemma nth_lt {A} (l : list A) i y : nth_error l i = Some y -> (i < length l)%nat.
  Proof. intros H. apply nth_error_Some. rewrite H. discriminate. Qed.
  (** reading a list after one entry was replaced *)
  Lemma nth_set {A} (l : list A) i x j y : nth_error (set_nth i x l) j = Some y ->
    (j = i /\ y = x /\ (i < length l)%nat) \/ (j <> i /\ nth_error l j = Some y).
  Proof.
    intros H. pose proof (nth_lt _ _ _ H) as L. rewrite set_nth_length in L.
    destruct (Nat.eq_dec j i) as [->|N].
    - rewrite nth_error_set_nth_eq in H by lia. inversion H. auto.
    - rewrite nth_error_set_nth_neq in H by lia. auto.
  Qed.
  Lemma holder_some i k t : holder i t = Some k -> nth_error (tl_holds t) i = Some (Some k).
  Proof. unfold holder. destruct (nth_error (tl_holds t) i) as [[x|]|]; congruence. Qed.
  Lemma holder_none i t : (i < length (tl_holds t))%nat -> holder i t = None -> nth_error (tl_holds t) i = Some None.
  Proof.
    intros L H. unfold holder in H. destruct (nth_error (tl_holds t) i) as [[x|]|] eqn:E; try congruence.
    apply nth_error_None in E. lia.
  Qed.

  Lemma empty_call : forall c m r m1, mu_list m = [] -> ma_do ne hash c m = Ok (r, m1) -> mu_list m1 = [] /\ nameless c = true /\ r = nothing c.
  Proof.
    intros c m r m1 E D. destruct c as [e n d h|ps h|n|f h ord|]; cbn [ma_do] in D.
    - unfold ma_push, ma_pos, ma_shard in D. rewrite E in D.
      destruct (Z.of_nat (ma_hash (mu_opt m)) =? 0)%Z; cbn [bind] in D; [discriminate|].
      destruct (Z.to_nat _); discriminate.
    - destruct ps as [|[e [n d]] t]; cbn [ma_multi_push bind] in D.
      + inversion D; subst. auto.
      + unfold ma_push, ma_pos, ma_shard in D. rewrite E in D.
        destruct (Z.of_nat (ma_hash (mu_opt m)) =? 0)%Z; cbn [bind] in D; [discriminate|].
        destruct (Z.to_nat _); discriminate.
    - unfold ma_del, ma_pos, ma_shard in D. rewrite E in D.
      destruct (Z.of_nat (ma_hash (mu_opt m)) =? 0)%Z; cbn [bind] in D; [discriminate|].
      destruct (Z.to_nat _); discriminate.
    - unfold ma_pushout in D. rewrite E in D. cbn in D. inversion D; subst. auto.
    - inversion D; subst. unfold ma_size, ma_data_size. rewrite E. auto.
  Qed.
  Lemma empty_call_fwd : forall c m, mu_list m = [] ->
    (nameless c = true -> exists m1, ma_do ne hash c m = Ok (nothing c, m1)) /\ (nameless c = false -> ma_do ne hash c m = Ub).
  Proof.
    intros c m E. destruct c as [e n d h|ps h|n|f h ord|]; cbn [ma_do nameless nothing]; split; intros N; try discriminate.
    - unfold ma_push, ma_pos, ma_shard. rewrite E. destruct (Z.of_nat (ma_hash (mu_opt m)) =? 0)%Z; cbn [bind]; [reflexivity|].
      destruct (Z.to_nat _); reflexivity.
    - destruct ps as [|x t]; [|discriminate]. cbn. eauto.
    - destruct ps as [|[e [n d]] t]; [discriminate|]. cbn [ma_multi_push bind].
      unfold ma_push, ma_pos, ma_shard. rewrite E. destruct (Z.of_nat (ma_hash (mu_opt m)) =? 0)%Z; cbn [bind]; [reflexivity|].
      destruct (Z.to_nat _); reflexivity.
    - unfold ma_del, ma_pos, ma_shard. rewrite E. destruct (Z.of_nat (ma_hash (mu_opt m)) =? 0)%Z; cbn [bind]; [reflexivity|].
      destruct (Z.to_nat _); reflexivity.
    - unfold ma_pushout. rewrite E. cbn. eauto.
    - unfold ma_size, ma_data_size. rewrite E. cbn. eauto.
  Qed.

  Lemma mv_at_ok i xs m : mv_at i xs = Ok m -> nth_error xs i = Some m.
  Proof. unfold mv_at. destruct (nth_error xs i); congruence. Qed.

  Lemma inv_new : forall o xs t, MvInv xs t -> MvInv (xs ++ [ma_new o]) (tell t (VNew o, None)).
  Proof.
    intros o xs t (L & E & B & U & K & C). unfold MvInv, tell, calls_of, answers_of. cbn [tl_holds tl_born tl_calls].
    rewrite !app_length. cbn [length]. repeat apply conj.
    - lia.
    - intros i H. apply nth_snoc in H. destruct H as [H|[_ H]]; [|discriminate].
      destruct (E _ H) as (m & A & Z0). exists m. split; [apply nth_snoc_l; exact A|exact Z0].
    - intros i k H. apply nth_snoc in H. destruct H as [H|[_ H]]; [apply B in H; lia|inversion H; lia].
    - intros i j k H H2. apply nth_snoc in H. apply nth_snoc in H2.
      destruct H as [H|[A H]], H2 as [H2|[A2 H2]].
      + eauto.
      + inversion H2; subst. apply B in H. lia.
      + inversion H; subst. apply B in H2. lia.
      + lia.
    - intros p H. apply K in H. lia.
    - intros k o0 H. apply nth_snoc in H. destruct H as [H|[A ->]].
      + destruct (C _ _ H) as (m & R & S). exists m. split; [exact R|].
        intros i H2. apply nth_snoc in H2. destruct H2 as [H2|[_ H2]].
        * apply nth_snoc_l. apply S. exact H2.
        * inversion H2; subst. apply nth_lt in H. lia.
      + exists (ma_new o). subst k. split.
        * rewrite filter_none; [reflexivity|]. intros p H2. apply K in H2. apply Nat.eqb_neq. lia.
        * intros i H2. apply nth_snoc in H2. destruct H2 as [H2|[A2 _]].
          { apply B in H2. lia. }
          { subst i. rewrite L. apply nth_snoc_last. }
  Qed.

  Definition with_holds (h : list (option nat)) (t : tale) : tale := mk_tale h (tl_born t) (tl_calls t).
  Lemma inv_clear : forall j m xs t, MvInv xs t -> (j < length xs)%nat ->
    MvInv (set_nth j (mv_left m) xs) (with_holds (set_nth j None (tl_holds t)) t).
  Proof.
    intros j m xs t (L & E & B & U & K & C) J. unfold MvInv, with_holds, calls_of, answers_of. cbn [tl_holds tl_born tl_calls].
    rewrite !set_nth_length. repeat apply conj; auto.
    - intros i H. apply nth_set in H. destruct H as [(-> & _ & _)|[N H]].
      + exists (mv_left m). split; [apply nth_error_set_nth_eq; exact J|reflexivity].
      + destruct (E _ H) as (m1 & A & Z0). exists m1. split; [rewrite nth_error_set_nth_neq by lia; exact A|exact Z0].
    - intros i k H. apply nth_set in H. destruct H as [(_ & H & _)|[_ H]]; [discriminate|eauto].
    - intros i i2 k H H2. apply nth_set in H. apply nth_set in H2.
      destruct H as [(_ & H & _)|[_ H]]; [discriminate|]. destruct H2 as [(_ & H2 & _)|[_ H2]]; [discriminate|]. eauto.
    - intros k o H. destruct (C _ _ H) as (m1 & R & S). exists m1. split; [exact R|].
      intros i H2. apply nth_set in H2. destruct H2 as [(_ & H2 & _)|[N H2]]; [discriminate|].
      rewrite nth_error_set_nth_neq by lia. auto.
  Qed.
  (** what may be put into a variable *)
  Definition fits (c : option nat) (m : multi) (t : tale) : Prop :=
    match c with
    | None => mu_list m = []
    | Some k => (forall i, nth_error (tl_holds t) i <> Some (Some k)) /\ exists o, nth_error (tl_born t) k = Some o /\
        ma_run ne hash (ma_new o) (calls_of k t) = Ok (answers_of k t, m)
    end.
  Lemma inv_put : forall i c m xs t, MvInv xs t -> (i < length xs)%nat -> fits c m t ->
    MvInv (set_nth i m xs) (with_holds (set_nth i c (tl_holds t)) t).
  Proof.
    intros i c m xs t (L & E & B & U & K & C) J F. unfold MvInv, with_holds, calls_of, answers_of. cbn [tl_holds tl_born tl_calls].
    rewrite !set_nth_length. repeat apply conj; auto.
    - intros j H. apply nth_set in H. destruct H as [(-> & H & _)|[N H]].
      + subst c. exists m. split; [apply nth_error_set_nth_eq; exact J|exact F].
      + destruct (E _ H) as (m1 & A & Z0). exists m1. split; [rewrite nth_error_set_nth_neq by lia; exact A|exact Z0].
    - intros j k H. apply nth_set in H. destruct H as [(_ & H & _)|[_ H]]; [|eauto].
      subst c. destruct F as (_ & o & O & _). apply nth_lt in O. exact O.
    - intros a b k H H2. apply nth_set in H. apply nth_set in H2.
      destruct H as [(-> & H & _)|[_ H]], H2 as [(-> & H2 & _)|[_ H2]]; auto.
      + subst c. destruct F as [F _]. apply F in H2. contradiction.
      + subst c. destruct F as [F _]. apply F in H. contradiction.
      + eauto.
    - intros k o H. destruct (C _ _ H) as (m1 & R & S). exists m1. split; [exact R|].
      intros j H2. apply nth_set in H2. destruct H2 as [(-> & H2 & _)|[N H2]].
      + subst c. destruct F as (_ & o1 & O & R1). rewrite H in O. inversion O; subst o1.
        rewrite R in R1. inversion R1; subst. apply nth_error_set_nth_eq. exact J.
      + rewrite nth_error_set_nth_neq by lia. auto.
  Qed.
  Lemma inv_append : forall c m xs t, MvInv xs t -> fits c m t -> MvInv (xs ++ [m]) (with_holds (tl_holds t ++ [c]) t).
  Proof.
    intros c m xs t (L & E & B & U & K & C) F. unfold MvInv, with_holds, calls_of, answers_of. cbn [tl_holds tl_born tl_calls].
    rewrite !app_length. cbn [length]. repeat apply conj; auto.
    - intros j H. apply nth_snoc in H. destruct H as [H|[-> H]].
      + destruct (E _ H) as (m1 & A & Z0). exists m1. split; [apply nth_snoc_l; exact A|exact Z0].
      + subst c. exists m. split; [rewrite L; apply nth_snoc_last|exact F].
    - intros j k H. apply nth_snoc in H. destruct H as [H|[_ H]]; [eauto|].
      subst c. destruct F as (_ & o & O & _). apply nth_lt in O. exact O.
    - intros a b k H H2. apply nth_snoc in H. apply nth_snoc in H2.
      destruct H as [H|[-> H]], H2 as [H2|[-> H2]]; auto.
      + eauto.
      + subst c. destruct F as [F _]. apply F in H. contradiction.
      + subst c. destruct F as [F _]. apply F in H2. contradiction.
    - intros k o H. destruct (C _ _ H) as (m1 & R & S). exists m1. split; [exact R|].
      intros j H2. apply nth_snoc in H2. destruct H2 as [H2|[-> H2]].
      + apply nth_snoc_l. auto.
      + subst c. destruct F as (_ & o1 & O & R1). rewrite H in O. inversion O; subst o1.
        rewrite R in R1. inversion R1; subst. rewrite L. apply nth_snoc_last.
  Qed.
  (** what was taken out of variable j fits anywhere *)
  Lemma taken_fits : forall j m xs t, MvInv xs t -> nth_error xs j = Some m ->
    fits (holder j t) m (with_holds (set_nth j None (tl_holds t)) t).
  Proof.
    intros j m xs t (L & E & B & U & K & C) M. pose proof (nth_lt _ _ _ M) as J.
    destruct (holder j t) as [k|] eqn:H; cbn [fits].
    - apply holder_some in H. split.
      + intros i H2. cbn in H2. apply nth_set in H2. destruct H2 as [(_ & H2 & _)|[N H2]]; [discriminate|].
        apply N. eapply U; eauto.
      + destruct (nth_error (tl_born t) k) as [o|] eqn:O.
        2:{ apply nth_error_None in O. apply B in H. lia. }
        exists o. split; [exact O|]. destruct (C _ _ O) as (m1 & R & S). rewrite (S _ H) in M. inversion M; subst. exact R.
    - apply holder_none in H; [|lia]. destruct (E _ H) as (m1 & A & Z0). rewrite M in A. inversion A; subst. exact Z0.
  Qed.

  Lemma filter_snoc {A} (f : A -> bool) l x : filter f (l ++ [x]) = if f x then filter f l ++ [x] else filter f l.
  Proof. rewrite filter_app. cbn. destruct (f x); [reflexivity|apply app_nil_r]. Qed.

  Lemma inv_call : forall i c m r m1 xs t, MvInv xs t -> nth_error xs i = Some m -> ma_do ne hash c m = Ok (r, m1) ->
    MvInv (set_nth i m1 xs) (tell t (VCall i c, Some r)).
  Proof.
    intros i c m r m1 xs t I M D. pose proof I as (L & E & B & U & K & C). pose proof (nth_lt _ _ _ M) as J. cbn [tell].
    destruct (holder i t) as [k|] eqn:H.
    - apply holder_some in H. unfold MvInv. cbn [tl_holds tl_born tl_calls]. rewrite set_nth_length. repeat apply conj; auto.
      + intros j Hj. destruct (E _ Hj) as (m2 & A & Z0). exists m2. split; [|exact Z0].
        rewrite nth_error_set_nth_neq; [exact A|]. intros ->. congruence.
      + intros p P. apply in_app_or in P. destruct P as [P|[<-|[]]]; [auto|]. eapply B; eauto.
      + intros k2 o O. destruct (C _ _ O) as (m2 & R & S). unfold calls_of, answers_of in *. cbn [tl_calls].
        rewrite filter_snoc. cbn [fst]. destruct (Nat.eqb_spec k k2) as [->|N].
        * pose proof (S _ H) as M2. rewrite M in M2. inversion M2; subst m2. exists m1. rewrite !map_app. split.
          { eapply ma_run_snoc; eauto. }
          { intros j Hj. rewrite (U _ _ _ Hj H). apply nth_error_set_nth_eq. exact J. }
        * exists m2. split; [exact R|]. intros j Hj. rewrite nth_error_set_nth_neq; [auto|]. intros ->. congruence.
    - pose proof H as H0. apply holder_none in H; [|lia]. destruct (E _ H) as (m2 & A & Z0). rewrite M in A. inversion A; subst m2.
      destruct (empty_call _ _ _ _ Z0 D) as (Z1 & _ & _).
      unfold MvInv. rewrite set_nth_length. repeat apply conj; auto.
      + intros j Hj. destruct (Nat.eq_dec j i) as [->|N].
        * exists m1. split; [apply nth_error_set_nth_eq; exact J|exact Z1].
        * rewrite nth_error_set_nth_neq by lia. auto.
      + intros k o O. destruct (C _ _ O) as (m2 & R & S). exists m2. split; [exact R|].
        intros j Hj. rewrite nth_error_set_nth_neq; [auto|]. intros ->. congruence.
  Qed.

  Lemma inv_step : forall op xs t r ys, MvInv xs t -> mv_do ne hash op xs = Ok (r, ys) -> MvInv ys (tell t (op, r)).
  Proof.
    intros op xs t r ys I D. destruct op as [o|j|i j|i c]; cbn [mv_do] in D.
    - inversion D; subst. apply inv_new. exact I.
    - destruct (mv_at j xs) as [m| |] eqn:M; cbn [bind] in D; try discriminate. apply mv_at_ok in M.
      inversion D; subst. pose proof (inv_clear j m _ _ I (nth_lt _ _ _ M)) as I1.
      exact (inv_append _ _ _ _ I1 (taken_fits _ _ _ _ I M)).
    - destruct (mv_at j xs) as [m| |] eqn:M; cbn [bind] in D; try discriminate. apply mv_at_ok in M.
      destruct (mv_at i xs) as [m2| |] eqn:M2; cbn [bind] in D; try discriminate. apply mv_at_ok in M2.
      inversion D; subst. cbn [tell]. pose proof (inv_clear j m _ _ I (nth_lt _ _ _ M)) as I1.
      destruct (Nat.eqb_spec i j) as [->|N]; [exact I1|].
      refine (inv_put _ _ _ _ _ I1 _ (taken_fits _ _ _ _ I M)). rewrite set_nth_length. apply nth_lt in M2. exact M2.
    - destruct (mv_at i xs) as [m| |] eqn:M; cbn [bind] in D; try discriminate. apply mv_at_ok in M.
      destruct (ma_do ne hash c m) as [[r1 m1]| |] eqn:F; cbn [bind] in D; try discriminate. inversion D; subst.
      eapply inv_call; eauto.
  Qed.
  Lemma inv_run : forall ops xs t outs ys, MvInv xs t -> mv_run ne hash xs ops = Ok (outs, ys) ->
    MvInv ys (fold_left tell (combine ops outs) t).
  Proof.
    induction ops as [|op ops IH]; intros xs t outs ys I H; cbn [mv_run] in H.
    - inversion H; subst. exact I.
    - destruct (mv_do ne hash op xs) as [[r zs]| |] eqn:D; cbn [bind] in H; try discriminate.
      destruct (mv_run ne hash zs ops) as [[rs ws]| |] eqn:R; cbn [bind] in H; try discriminate.
      inversion H; subst. cbn [combine fold_left]. eapply IH; eauto. eapply inv_step; eauto.
  Qed.
  Lemma mv_reach : forall ops outs xs, mv_run ne hash [] ops = Ok (outs, xs) -> MvInv xs (tale_of ops outs).
  Proof.
    intros ops outs xs H. refine (inv_run _ _ _ _ _ _ H). unfold MvInv. cbn.
    repeat apply conj.
    - reflexivity.
    - intros i A. destruct i; discriminate.
    - intros i k A. destruct i; discriminate.
    - intros i j k A. destruct i; discriminate.
    - intros p [].
    - intros k o A. destruct k; discriminate.
  Qed.
End P.
