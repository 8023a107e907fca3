(** What the handler of a meter is given, and what its report says. *)
From Coq Require Import ZArith List Bool Lia Arith Ascii.
From Verif Require Import Base ModelTypes ModelReducer SpecReducer ModelSeparator SpecSeparator ModelAggregator SpecAggregator
  ModelRegistry SpecRegistry RegProofs RegFinal ModelConc SpecConc ConcProofs ConcInv ConcLin ConcNames ConcHandler ConcClear.
Import ListNotations.
Local Open Scope Z_scope.

Section Given.
  Variable ne : nat -> list Z -> list Z.
  Lemma given_app t a b : given_to t (a ++ b) = given_to t a ++ given_to t b.
  Proof. apply flat_map_app. Qed.
  Lemma given_lin t reg t' s g o a x : given_to t (lin reg t' s g o a x) = [].
  Proof. unfold lin. destruct reg; reflexivity. Qed.
  Definition GPc (t : nat) (q : pc) (k : kop) (mid : list event) : Prop :=
    match q with
    | PLeave true _ o => report_says t k mid o
    | _ => given_to t mid = []
    end.
  Definition GInv (evs : list event) (c : conc) : Prop :=
    forall t q, nth_error (k_thr c) t = Some q -> q <> PIdle ->
      exists pre k mid, evs = pre ++ EInv t k :: mid /\ silent t mid /\ from q k /\ GPc t q k mid.
  Lemma given_other t t' c k p ev r' dead' p' : t <> t' -> Kstep ne t c k p ev r' dead' p' -> given_to t' ev = [].
  Proof.
    intros N S. apply Nat.eqb_neq in N. destruct S; subst; unfold lin, given_to; simpl; try rewrite N; try (destruct reg; simpl); auto.
    all: destruct (out_ptr o); reflexivity.
  Qed.
  Lemma GInv_step o n evs c t k ev c' : Good ne o n evs c -> GInv evs c -> k_step ne t k c = Ok (ev, c') -> GInv (evs ++ ev) c'.
  Proof.
    intros G T E. destruct (step_Kstep _ _ _ _ _ _ E) as [(_ & -> & ->)|(p & p' & ET & S & TH)]; [now rewrite app_nil_r|].
    intros t' q Q NI. rewrite TH in Q. destruct (Nat.eq_dec t t') as [<-|N].
    - rewrite set_nth_same in Q by (now apply nth_error_lt in ET). injection Q as ->. clear TH E.
      assert (DP : p = PIdle \/ p <> PIdle) by (destruct p; auto; right; discriminate). destruct DP as [->|NP].
      + destruct (inside_start _ _ _ _ _ _ _ _ NI S) as (_ & FR). exists evs. 
        revert S FR NI. generalize (k_reg c') (k_dead c'). intros r' d' S FR NI. remember PIdle as z. destruct S; subst; try discriminate Heqz; try contradiction; try (destruct NI; reflexivity).
        all: eexists _, _; split; [reflexivity|]; split; [repeat constructor|]; split; [exact FR|reflexivity].
      + destruct (T _ _ ET NP) as (pre & k0 & mid & -> & SI & FR & GP). exists pre, k0, (mid ++ ev). rewrite <- app_assoc. split; auto.
        split; [apply Forall_app; split; auto; eapply silent_next; [| |exact S]; auto|].
        revert S. generalize (k_reg c') (k_dead c'). intros r' d' S. destruct S; subst; try (destruct NI; reflexivity); try (destruct NP; reflexivity); simpl in FR |- *; unfold GPc, report_says in *; rewrite ?given_app, ?given_lin.
        all: try (rewrite GP; split; [first [exact FR | now destruct k0 as [[]|] | subst k0; split; reflexivity] | try (destruct (out_ptr o0), reg); reflexivity]).
        * rewrite app_nil_r. auto.
        * subst k0. rewrite GP. split; reflexivity.
        * subst k0. rewrite GP. split; [reflexivity|]. exists []. split; auto.
        * rewrite GP. destruct k0 as [|p0 id' x0 d1 d2]; [contradiction|]. split; [apply FR|]. exists (w_deliver id recs (k_reg c)). split; auto. left. simpl. now rewrite Nat.eqb_refl.
    - rewrite set_nth_other in Q by auto. destruct (T _ _ Q NI) as (pre & k0 & mid & -> & Q0 & FR & GP). exists pre, k0, (mid ++ ev). rewrite <- app_assoc. split; auto.
      split; [apply Forall_app; split; auto; eapply silent_other; eauto|]. split; auto.
      pose proof (given_other _ _ _ _ _ _ _ _ _ N S) as GO. unfold GPc, report_says in *. rewrite given_app, GO, app_nil_r. exact GP.
  Qed.
  Lemma GInv_run o n sched evs c : k_run ne (k_new o n) sched = Ok (evs, c) -> GInv evs c.
  Proof.
    assert (GEN : forall sched evs c evs' c', Good ne o n evs c -> GInv evs c -> k_run ne c sched = Ok (evs', c') -> GInv (evs ++ evs') c').
    { induction sched0 as [|[t k] sched0 IH]; intros evs0 c0 evs' c' G T E; cbn [k_run] in E; [injection E as <- <-; now rewrite app_nil_r|].
      bind_in E x. destruct x as [ev c1]. bind_in E y. destruct y as [evs2 c2]. injection E as <- <-. rewrite app_assoc. eapply IH; [eapply Good_step; eauto|eapply GInv_step; eauto|eauto]. }
    intros E. apply (GEN sched [] (k_new o n) evs c); auto; [apply Good_new|]. intros t q H NI. simpl in H. apply nth_error_In, repeat_spec in H. contradiction.
  Qed.
  Lemma given_says o n sched evs c : k_run ne (k_new o n) sched = Ok (evs, c) ->
    forall pre t k body x post, evs = pre ++ EInv t k :: body ++ ERet t x :: post -> quiet t body -> report_says t k body x.
  Proof.
    intros E pre t k body x post EQ Q.
    assert (EQ' : evs = (pre ++ EInv t k :: body) ++ ERet t x :: post) by (rewrite EQ, <- app_assoc; reflexivity). clear EQ.
    destruct (run_split _ _ _ _ _ _ _ _ E EQ') as (s1 & t1 & k1 & s2 & evs1 & ev & evs2 & d1 & d2 & e1 & e2 & -> & R1 & S1 & R2 & EV & EP & EPO).
    pose proof (run_Good _ _ _ _ _ _ R1) as G. pose proof (GInv_run _ _ _ _ _ R1) as T. clear E EQ' R2 EPO.
    destruct (step_Kstep _ _ _ _ _ _ S1) as [(_ & -> & _)|(q & q' & ET & S & TH)]; [destruct e1; discriminate|].
    assert (TT : t1 = t).
    { destruct (Nat.eq_dec t1 t) as [|N]; auto. exfalso. pose proof (silent_other _ _ _ _ _ _ _ _ _ _ N S) as SO. rewrite EV in SO. apply Forall_app in SO. destruct SO as (_ & SO). inversion SO; subst. congruence. }
    subst t1.
    assert (DP : q = PIdle \/ q <> PIdle) by (destruct q; auto; right; discriminate). destruct DP as [->|NP].
    - assert (RT : In (ERet t x) ev) by (rewrite EV; apply in_or_app; right; left; auto).
      assert (ALIGN : forall k' e y, [EInv t k'; e; ERet t y] = e1 ++ ERet t x :: e2 -> (match e with ELin _ _ _ => True | _ => False end) -> k = k' /\ body = [e] /\ x = y).
      { intros k' e y H LE. destruct e1 as [|a1 e1]; [discriminate|]. injection H as <- H. destruct e1 as [|a2 e1]; [injection H as -> _; destruct LE|]. injection H as <- H.
        destruct e1 as [|a3 e1]; [|injection H as _ H; destruct e1; discriminate]. injection H as -> _. destruct (last_inv t pre k body _ k' [e] EP Q) as (_ & -> & ->); auto.
        constructor; [|constructor]. destruct e; try contradiction; exact I. }
      revert S. generalize (k_reg d2) (k_dead d2). intros r' d' S. remember PIdle as z. destruct S; subst; try discriminate Heqz; simpl in RT;
        try (exfalso; repeat (destruct RT as [RT|RT]; [discriminate RT|]); exact RT).
      + destruct (ALIGN _ _ _ EV I) as (-> & -> & ->). reflexivity.
      + destruct (ALIGN _ _ _ EV I) as (-> & -> & ->). reflexivity.
      + destruct (ALIGN _ _ _ EV I) as (-> & -> & ->). destruct dest; simpl; auto. exists []. auto.
    - destruct (T _ _ ET NP) as (pre0 & k0 & mid & -> & SI & FR & GP).
      assert (QE : quiet t (mid ++ e1)).
      { apply quiet_app. split; [apply silent_quiet; auto|]. pose proof (quiet_next _ _ _ _ _ _ _ _ _ NP S) as QN. rewrite EV in QN. apply quiet_app in QN. apply QN. }
      rewrite <- app_assoc in EP. simpl in EP. destruct (last_inv t _ _ _ _ _ _ EP Q QE) as (-> & -> & ->). clear EP T R1 G TH S1.
      assert (RT : In (ERet t x) ev) by (rewrite EV; apply in_or_app; right; left; auto).
      assert (OTHER : given_to t mid = [] -> given_to t ev = [] -> (match k0 with KMeter _ _ _ _ _ => False | _ => True end) -> report_says t k0 (mid ++ e1) x).
      { intros A B C. destruct k0; [|contradiction]. simpl. rewrite given_app, A. rewrite EV, given_app in B. apply app_eq_nil in B. apply B. }
      revert S. generalize (k_reg d2) (k_dead d2). intros r' d' S. destruct S; subst; try (destruct NP; reflexivity); unfold lin in RT; simpl in RT;
        try (exfalso; repeat (destruct RT as [RT|RT]; [first [discriminate RT | destruct reg; discriminate RT]|]); exact RT).
      all: try (apply OTHER; [exact GP|reflexivity|destruct k0; [exact I|contradiction]]).
      + destruct e1 as [|a e1]; [|injection EV as _ EV; destruct e1; discriminate]. injection EV as -> _. rewrite app_nil_r. destruct b; [exact GP|]. simpl in FR, GP. destruct k0 as [op|]; [exact GP|contradiction].
      + exfalso. destruct RT as [RT|RT]; [discriminate|]. destruct RT as [RT|RT]; [destruct reg; discriminate|]. destruct (out_ptr o0); [destruct RT as [RT|[]]; discriminate|destruct RT].
  Qed.
End Given.
