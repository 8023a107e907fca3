(** While a meter's handler runs, nobody else uses its aggregator. *)
From Coq Require Import ZArith List Bool Lia Arith Ascii.
From Verif Require Import Base ModelTypes ModelReducer SpecReducer ModelSeparator SpecSeparator ModelAggregator SpecAggregator
  ModelRegistry SpecRegistry RegProofs RegFinal AggFinal ModelConc SpecConc ConcProofs ConcInv ConcLin.
Import ListNotations.
Local Open Scope Z_scope.

Section Handler.
  Variable ne : nat -> list Z -> list Z.

  Lemma run_split sched : forall c evs c' pre e post, k_run ne c sched = Ok (evs, c') -> evs = pre ++ e :: post ->
    exists sched1 t k sched2 evs1 ev evs2 c1 c2 e1 e2, sched = sched1 ++ (t, k) :: sched2 /\ k_run ne c sched1 = Ok (evs1, c1) /\
      k_step ne t k c1 = Ok (ev, c2) /\ k_run ne c2 sched2 = Ok (evs2, c') /\ ev = e1 ++ e :: e2 /\ pre = evs1 ++ e1 /\ post = e2 ++ evs2.
  Proof.
    induction sched as [|[t k] sched IH]; intros c evs c' pre e post E EQ; cbn [k_run] in E; [injection E as <- <-; destruct pre; discriminate|].
    bind_in E x. destruct x as [ev c1]. bind_in E y. destruct y as [evs2 c2]. injection E as <- <-.
    destruct (split_late _ _ _ _ _ EQ) as [(p1 & X)|(e1 & X & ->)].
    - exists [], t, k, sched, [], ev, evs2, c, c1, pre, p1. rewrite X, <- app_assoc in EQ. apply app_inv_head in EQ. injection EQ as ->. repeat split; auto.
    - destruct (IH _ _ _ _ _ _ Ey X) as (s1 & t1 & k1 & s2 & evs1 & ev1 & evs3 & c3 & c4 & e3 & e4 & -> & R1 & S1 & R2 & -> & -> & ->).
      exists ((t, k) :: s1), t1, k1, s2, (ev ++ evs1), (e3 ++ e :: e4), evs3, c3, c4, e3, e4. cbn [k_run]. rewrite Ex. cbn [bind]. rewrite R1. cbn [bind].
      rewrite <- app_assoc. repeat split; auto.
  Qed.

  Lemma inside_fun t k1 k2 evs : inside t k1 evs -> inside t k2 evs -> k1 = k2.
  Proof.
    intros (a & b & -> & F) (a2 & b2 & E & F2). revert a2 E. induction a as [|x a IH]; intros [|y a2] E; simpl in E.
    - now injection E as -> _.
    - injection E as <- E. subst b. exfalso. apply Forall_app in F. destruct F as (_ & F). inversion F as [|? ? H]; subst. now apply H.
    - injection E as -> E. subst b2. exfalso. apply Forall_app in F2. destruct F2 as (_ & F2). inversion F2 as [|? ? H]; subst. now apply H.
    - injection E as _ E. eauto.
  Qed.

  Definition obj_of (e : event) : option nat := match e with EObj _ s _ _ => Some s | _ => None end.

  Lemma step_obj t k c ev c' e s : k_step ne t k c = Ok (ev, c') -> In e ev -> obj_of e = Some s -> can_call s c = true.
  Proof.
    intros E IN OB. destruct (step_Kstep _ _ _ _ _ _ E) as [(_ & -> & _)|(p & p' & ET & S & TH)]; [contradiction|].
    assert (LIN : forall reg u g o a r tail, ev = lin reg t u g o a r ++ tail -> can_call u c = true ->
      (forall e, In e tail -> obj_of e = None) -> can_call s c = true).
    { intros reg u g o a r tail -> CC NT. unfold lin in IN. destruct IN as [<-|[<-|IN]].
      - simpl in OB. injection OB as <-. auto.
      - destruct reg; discriminate.
      - rewrite (NT _ IN) in OB. discriminate. }
    revert S. generalize (k_reg c') (k_dead c'). intros r' d' S.
    destruct S; subst;
      try (simpl in IN; repeat match goal with H : _ \/ _ |- _ => destruct H as [<-|H] end; try contradiction; discriminate).
    - eapply LIN; [symmetry; apply app_nil_r|eassumption|]. intros ? [].
    - eapply LIN; [symmetry; apply app_nil_r|eassumption|]. intros ? [].
    - eapply LIN; [symmetry; apply app_nil_r|eassumption|]. intros ? [].
    - eapply LIN; [symmetry; apply app_nil_r|eassumption|]. intros ? [].
    - eapply LIN; [symmetry; apply app_nil_r|eassumption|]. intros ? [].
    - eapply LIN; [reflexivity|eassumption|]. destruct (out_ptr o); intros ? [<-|[]] || intros ? []; reflexivity.
    - eapply LIN; [symmetry; apply app_nil_r|eassumption|]. intros ? [].
  Qed.

  Lemma deliver_blocks c t s id recs : nth_error (k_thr c) t = Some (PDeliver s id recs) -> can_call s c = false.
  Proof.
    intros H. unfold can_call. apply negb_false_iff. apply existsb_exists. exists (PDeliver s id recs). split; [eapply nth_error_In; eauto|].
    simpl. apply Nat.eqb_refl.
  Qed.

  Lemma deliver_stays t s id recs sched : forall c evs c', k_run ne c sched = Ok (evs, c') -> nth_error (k_thr c) t = Some (PDeliver s id recs) ->
    (forall y, ~ In (EGiven t y) evs) -> nth_error (k_thr c') t = Some (PDeliver s id recs).
  Proof.
    induction sched as [|[u k] sched IH]; intros c evs c' E ET NR; cbn [k_run] in E; [injection E as <- <-; auto|].
    bind_in E x. destruct x as [ev c1]. bind_in E y. destruct y as [evs2 c2]. injection E as <- <-.
    eapply IH; [exact Ey| |intros y IN; apply (NR y), in_app_iff; auto].
    destruct (step_Kstep _ _ _ _ _ _ Ex) as [(_ & _ & ->)|(p & p' & EU & S & TH)]; auto. rewrite TH. destruct (Nat.eq_dec u t) as [->|N].
    - rewrite set_nth_same by (now apply nth_error_lt in ET). rewrite ET in EU. injection EU as <-.
      assert (NR' : forall y, ~ In (EGiven t y) ev) by (intros y IN; apply (NR y), in_app_iff; auto).
      revert S. generalize (k_reg c1) (k_dead c1). intros r' d' S. remember (PDeliver s id recs) as q. destruct S; try discriminate; auto.
      exfalso. eapply NR'. right. left. reflexivity.
    - rewrite set_nth_other by auto. auto.
  Qed.

  Lemma one_obj t k c ev c' e1 e e2 s : k_step ne t k c = Ok (ev, c') -> ev = e1 ++ e :: e2 -> obj_of e = Some s -> e1 = [] /\ Forall (fun e => obj_of e = None) e2.
  Proof.
    intros E EV OB. destruct (step_Kstep _ _ _ _ _ _ E) as [(_ & -> & _)|(p & p' & ET & S & TH)]; [destruct e1; discriminate|].
    assert (IN : In e ev) by (rewrite EV; apply in_app_iff; right; left; auto).
    assert (NO : Forall (fun e => obj_of e = None) ev -> False) by (intros F; rewrite Forall_forall in F; rewrite (F _ IN) in OB; discriminate).
    assert (LIN : forall reg u g o a r tail, ev = lin reg t u g o a r ++ tail -> Forall (fun e => obj_of e = None) tail ->
      e1 = [] /\ Forall (fun e => obj_of e = None) e2).
    { intros reg u g o a r tail EQ NT. rewrite EQ in EV. unfold lin in EV. simpl in EV.
      assert (N2 : Forall (fun e => obj_of e = None) ((if reg then ELin t a r else ELate t a r) :: tail)) by (constructor; [destruct reg; auto|auto]).
      destruct e1 as [|x e1]; injection EV as _ EV.
      - split; auto. rewrite <- EV. auto.
      - exfalso. rewrite EV in N2. apply Forall_app in N2. destruct N2 as (_ & N2). inversion N2; congruence. }
    revert S. generalize (k_reg c') (k_dead c'). intros r' d' S.
    destruct S; subst; try solve [exfalso; apply NO; repeat constructor].
    - eapply LIN; [symmetry; apply app_nil_r|constructor].
    - eapply LIN; [symmetry; apply app_nil_r|constructor].
    - eapply LIN; [symmetry; apply app_nil_r|constructor].
    - eapply LIN; [symmetry; apply app_nil_r|constructor].
    - eapply LIN; [symmetry; apply app_nil_r|constructor].
    - eapply LIN; [reflexivity|destruct (out_ptr o); repeat constructor].
    - eapply LIN; [symmetry; apply app_nil_r|constructor].
  Qed.

  Lemma in_dec_given t l : (exists y, In (EGiven t y) l) \/ forall y, ~ In (EGiven t y) l.
  Proof.
    induction l as [|e l [(y & IH)|IH]]; [right; auto|left; exists y; right; auto|].
    assert (D : (exists y, e = EGiven t y) \/ forall y, e <> EGiven t y).
    { destruct e as [| | | |u y|]; try (right; discriminate). destruct (Nat.eq_dec u t) as [->|N]; [left; eauto|right; congruence]. }
    destruct D as [(y & ->)|D]; [left; exists y; left; auto|right; intros y [H|H]; [eapply D; eauto|eapply IH; eauto]].
  Qed.

  Lemma handler_alone o n sched evs c : k_run ne (k_new o n) sched = Ok (evs, c) ->
    forall pre t p id x c1 c2 s g a mid t' g' b post,
      evs = pre ++ EObj t s g a :: mid ++ EObj t' s g' b :: post -> inside t (KMeter p id x c1 c2) pre ->
      out_handler a <> [] -> exists l, In (EGiven t l) mid.
  Proof.
    intros E pre t p id x c1 c2 s g a mid t' g' b post EQ IN NN.
    destruct (run_split _ _ _ _ _ _ _ E EQ) as (s1 & t1 & k1 & s2 & evs1 & ev & evs2 & d1 & d2 & e1 & e2 & -> & R1 & S1 & R2 & EV & EP & EPO).
    destruct (one_obj _ _ _ _ _ _ _ _ _ S1 EV eq_refl) as (-> & N2). rewrite app_nil_r in EP. subst evs1.
    pose proof (run_Good _ _ _ _ _ _ R1) as G. simpl in EV.
    assert (EB : exists mid2, mid = e2 ++ mid2 /\ evs2 = mid2 ++ EObj t' s g' b :: post).
    { symmetry in EPO. destruct (split_late _ _ _ _ _ EPO) as [(p1 & ->)|(m & -> & ->)]; [|eauto]. exfalso. apply Forall_app in N2. destruct N2 as (_ & N2). inversion N2; discriminate. }
    destruct EB as (mid2 & -> & EQ2). clear EPO EQ.
    destruct (step_Kstep _ _ _ _ _ _ S1) as [(_ & -> & _)|(q & q' & ET & S & TH)]; [discriminate|].
    assert (TT : t1 = t).
    { revert S. generalize (k_reg d2) (k_dead d2). intros r' dd S. destruct S; subst; try discriminate; unfold lin in EV; simpl in EV; congruence. }
    subst t1.
    assert (NI : q <> PIdle).
    { intros ->. revert S. generalize (k_reg d2) (k_dead d2). intros r' dd S. remember PIdle as z. destruct S; subst; discriminate. }
    destruct (li_in _ _ (go_late _ _ _ _ _ G) _ _ ET NI) as (k' & IN' & FR). pose proof (inside_fun _ _ _ _ IN' IN) as ->.
    assert (DEL : nth_error (k_thr d2) t = Some (PDeliver s id (out_handler a))).
    { rewrite TH, set_nth_same by (now apply nth_error_lt in ET).
      revert S. generalize (k_reg d2) (k_dead d2). intros r' dd S. destruct S; subst; simpl in FR; try contradiction; try discriminate; unfold lin in EV; simpl in EV.
      - injection EV as _ _ -> _. contradiction.
      - injection EV as <- _ <- _. injection FR as <- <- _ _ _. reflexivity. }
    destruct (in_dec_given t mid2) as [(y & Y)|NR]; [exists y; apply in_app_iff; auto|]. exfalso.
    destruct (run_split _ _ _ _ _ _ _ R2 EQ2) as (s3 & t3 & k3 & s4 & evs3 & ev3 & evs4 & d3 & d4 & e3 & e4 & -> & R3 & S3 & R4 & EV3 & EP3 & EPO3).
    destruct (one_obj _ _ _ _ _ _ _ _ _ S3 EV3 eq_refl) as (-> & _). rewrite app_nil_r in EP3. subst evs3.
    pose proof (deliver_stays _ _ _ _ _ _ _ _ R3 DEL NR) as D3. pose proof (deliver_blocks _ _ _ _ _ D3) as BL.
    assert (can_call s d3 = true) by (eapply step_obj; [exact S3|rewrite EV3; left; reflexivity|reflexivity]). congruence.
  Qed.
End Handler.
