(** clear() of registered aggregators while threads use the registry. *)
From Coq Require Import ZArith List Bool Lia Arith Ascii.
From Verif Require Import Base ModelTypes ModelReducer SpecReducer ModelSeparator SpecSeparator ModelAggregator SpecAggregator
  ModelRegistry SpecRegistry RegProofs RegFinal AggFinal ModelConc SpecConc ConcProofs ConcInv ConcLin ConcNames ConcHandler ConcFinal.
Import ListNotations.
Local Open Scope Z_scope.

Section Clear.
  Variable ne : nat -> list Z -> list Z.

  (** The token of an aggregator is gone exactly if clear() was called on it. *)
  Lemma run_id ops : forall g outs g', g_run ne g ops = Ok (outs, g') -> g_id g = true ->
    (g_id g' = false <-> exists l c, In (GoClear l c) ops).
  Proof.
    intros g outs g' E ID. destruct (existsb (fun op => match op with GoClear _ _ => true | _ => false end) ops) eqn:X.
    - apply existsb_exists in X. destruct X as (op & IN & X). destruct op; try discriminate. split; [intros _; eauto|]. intros _.
      clear ID. revert g outs g' E. induction ops as [|op ops IH]; intros g outs g' E; [destruct IN|]. cbn [g_run] in E. bind_in E x. destruct x as [o1 g1]. bind_in E y.
      destruct y as [os g2]. injection E as <- <-. destruct IN as [->|IN].
      + eapply id_run; eauto. now rewrite (id_call _ _ _ _ _ Ex).
      + eauto.
    - assert (NC : Forall gnot_clear ops).
      { apply Forall_forall. intros op IN. destruct op; simpl; auto. assert (Y : existsb (fun op => match op with GoClear _ _ => true | _ => false end) ops = true) by (apply existsb_exists; eexists; split; [exact IN|reflexivity]). congruence. }
      rewrite (id_run_true _ _ NC _ _ _ E), ID. split; [discriminate|]. intros (l & c & IN). rewrite Forall_forall in NC. destruct (NC _ IN).
  Qed.
  Lemma obj_id o n evs c s g : Good ne o n evs c -> exists_obj c s g -> (g_id g = false <-> clear_called s evs).
  Proof.
    intros G EX. destruct (hi_obj _ _ _ _ (go_hist _ _ _ _ _ G) _ _ EX) as (e & now & g0 & pre & pouts & _ & A & B & C).
    rewrite (run_id _ _ _ _ C (agg_new_id _ _ _ _ _ A)). unfold clear_called. split; intros (l & cl & IN); exists l, cl.
    - apply in_app_or in IN. destruct IN as [IN|IN]; auto. exfalso. pose proof (creation_clear _ _ B) as NC. rewrite Forall_forall in NC. destruct (NC _ IN).
    - apply in_or_app. auto.
  Qed.
  Lemma find_exists c s g : k_find s c = Some g -> exists_obj c s g.
  Proof.
    unfold k_find. destruct (find_obj s (rg_arr (k_reg c))) as [[pos g0]|] eqn:EF.
    - intros E. injection E as ->. left. exists pos. eapply find_obj_some; eauto.
    - destruct (existsb _ _); [|discriminate]. intros E. right. auto.
  Qed.
  Lemma cleared_called o n evs c s : Good ne o n evs c -> cleared s c = true -> clear_called s evs.
  Proof.
    intros G E. unfold cleared in E. destruct (k_find s c) as [g|] eqn:EF; [|discriminate]. apply negb_true_iff in E.
    apply (obj_id _ _ _ _ _ _ G (find_exists _ _ _ EF)). auto.
  Qed.

  Lemma silent_quiet t l : silent t l -> quiet t l.
  Proof. intros H. eapply Forall_impl; [|exact H]. intros e X. destruct e; auto. Qed.

  (** What the threads that are about to push know. *)
  Definition fresh (t s : nat) (pre : list event) : Prop :=
    ~ clear_called s pre \/ exists t' k', t' <> t /\ inside t' k' pre /\ through s k'.
  (** Why the token could be locked by a call of [t] that starts after [pre]. *)
  Inductive lasts (s : nat) : nat -> list event -> Prop :=
  | LsNew t pre : ~ clear_called s pre -> lasts s t pre
  | LsHeld t t' k' a b : t' <> t -> silent t' b -> through s k' -> lasts s t' a -> lasts s t (a ++ EInv t' k' :: b).
  Lemma lasts_fresh s t pre : lasts s t pre -> fresh t s pre.
  Proof. intros H. destruct H; [left; auto|right]. exists t', k'. split; auto. split; auto. exists a, b. auto. Qed.
  Definition TInv (evs : list event) (c : conc) : Prop :=
    forall t q s, nth_error (k_thr c) t = Some q -> holds_token s q = true ->
      exists pre k mid, evs = pre ++ EInv t k :: mid /\ silent t mid /\ through s k /\ lasts s t pre.
  Lemma silent_next t c k p ev r' dead' p' : p <> PIdle -> p' <> PIdle -> Kstep ne t c k p ev r' dead' p' -> silent t ev.
  Proof.
    intros N N' S. destruct S; subst; try congruence; unfold silent, lin; repeat (apply Forall_app; split); repeat constructor; auto; try (destruct reg; exact I).
    destruct (out_ptr o); repeat constructor.
  Qed.
  Lemma TInv_step o n evs c t k ev c' : Good ne o n evs c -> TInv evs c -> k_step ne t k c = Ok (ev, c') -> TInv (evs ++ ev) c'.
  Proof.
    intros G T E. destruct (step_Kstep _ _ _ _ _ _ E) as [(_ & -> & ->)|(p & p' & ET & S & TH)]; [now rewrite app_nil_r|].
    intros t' q s Q HQ. rewrite TH in Q. destruct (Nat.eq_dec t t') as [<-|N].
    - rewrite set_nth_same in Q by (now apply nth_error_lt in ET). injection Q as ->. clear TH E.
      assert (KEEP : holds_token s p = true -> exists pre k mid, evs ++ ev = pre ++ EInv t k :: mid /\ silent t mid /\ through s k /\ lasts s t pre).
      { intros HP. destruct (T _ _ _ ET HP) as (pre & k0 & mid & -> & SI & TK & LS). exists pre, k0, (mid ++ ev). rewrite <- app_assoc. split; auto.
        split; auto. apply Forall_app. split; auto. eapply silent_next; [| |exact S]; intros ->; discriminate. }
      revert S. generalize (k_reg c') (k_dead c'). intros r' d' S. destruct S; subst; simpl in HQ; try discriminate HQ; try (apply KEEP; exact HQ).
      + apply Nat.eqb_eq in HQ. subst s. exists evs. eexists _, []. split; [reflexivity|]. split; [constructor|]. split; [destruct dest; reflexivity|].
        unfold token in H2. apply orb_true_iff in H2. destruct H2 as [H2|H2].
        * apply LsNew. intros CC. apply (obj_id _ _ _ _ _ _ G H0) in CC. congruence.
        * apply existsb_exists in H2. destruct H2 as (qq & IN & HQ). apply In_nth_error in IN. destruct IN as (u & EU).
          destruct (T _ _ _ EU HQ) as (a & k' & b & -> & SI & TK & LS). apply LsHeld; auto. intros ->. rewrite ET in EU. injection EU as <-. discriminate.
    - rewrite set_nth_other in Q by auto. destruct (T _ _ _ Q HQ) as (pre & k0 & mid & -> & Q0 & TK & LS). exists pre, k0, (mid ++ ev). rewrite <- app_assoc. split; auto.
      split; auto. apply Forall_app. split; auto. eapply silent_other; eauto.
  Qed.
  Lemma TInv_run o n sched evs c : k_run ne (k_new o n) sched = Ok (evs, c) -> TInv evs c.
  Proof.
    assert (GEN : forall sched evs c evs' c', Good ne o n evs c -> TInv evs c -> k_run ne c sched = Ok (evs', c') -> TInv (evs ++ evs') c').
    { induction sched0 as [|[t k] sched0 IH]; intros evs0 c0 evs' c' G T E; cbn [k_run] in E; [injection E as <- <-; now rewrite app_nil_r|].
      bind_in E x. destruct x as [ev c1]. bind_in E y. destruct y as [evs2 c2]. injection E as <- <-. rewrite app_assoc. eapply IH; [eapply Good_step; eauto|eapply TInv_step; eauto|eauto]. }
    intros E. apply (GEN sched [] (k_new o n) evs c); auto; [apply Good_new|]. intros t q s H HQ. simpl in H. apply nth_error_In, repeat_spec in H. subst q. discriminate.
  Qed.

  (** A push made through a pusher reaches the aggregator only if clear() had not been called, or the token was held. *)
  Lemma push_lasts o n sched evs c : k_run ne (k_new o n) sched = Ok (evs, c) ->
    forall pre t k mid s g a post, evs = pre ++ EInv t k :: mid ++ EObj t s g a :: post -> quiet t mid -> through s k -> lasts s t pre.
  Proof.
    intros E pre t k mid s g a post EQ Q TK.
    assert (EQ' : evs = (pre ++ EInv t k :: mid) ++ EObj t s g a :: post) by (rewrite EQ, <- app_assoc; reflexivity). clear EQ.
    destruct (run_split _ _ _ _ _ _ _ _ E EQ') as (s1 & t1 & k1 & s2 & evs1 & ev & evs2 & d1 & d2 & e1 & e2 & -> & R1 & S1 & R2 & EV & EP & EPO).
    destruct (one_obj _ _ _ _ _ _ _ _ _ _ S1 EV eq_refl) as (-> & _). rewrite app_nil_r in EP. subst evs1. simpl in EV.
    pose proof (run_Good _ _ _ _ _ _ R1) as G. pose proof (TInv_run _ _ _ _ _ R1) as T.
    destruct (step_Kstep _ _ _ _ _ _ S1) as [(_ & -> & _)|(q & q' & ET & S & TH)]; [discriminate|].
    assert (TT : t1 = t).
    { revert S. generalize (k_reg d2) (k_dead d2). intros r' dd S. destruct S; subst; try discriminate; unfold lin in EV; simpl in EV; congruence. }
    subst t1.
    assert (NI : q <> PIdle).
    { intros ->. revert S. generalize (k_reg d2) (k_dead d2). intros r' dd S. remember PIdle as z. destruct S; subst; discriminate. }
    destruct (li_in _ _ (go_late _ _ _ _ _ G) _ _ ET NI) as (k' & (a1 & b1 & EE1 & SI) & FR).
    destruct (last_inv t _ _ _ _ _ _ EE1 Q (silent_quiet _ _ SI)) as (_ & <- & _).
    assert (PL : exists p x c1 c2 dest, q = PLocked p x c1 c2 dest /\ rp_obj p = s).
    { revert S. generalize (k_reg d2) (k_dead d2). intros r' dd S. destruct S; subst; simpl in FR; try discriminate EV; try contradiction;
        try (unfold lin in EV; simpl in EV; injection EV as <- _ _ _; do 5 eexists; split; reflexivity);
        destruct k as [[]|]; simpl in FR, TK; contradiction. }
    destruct PL as (p & x & c1 & c2 & dest & -> & <-). destruct (T _ _ (rp_obj p) ET (Nat.eqb_refl _)) as (pre1 & k1' & mid1 & EE & Q1 & _ & F).
    destruct (last_inv t _ _ _ _ _ _ EE Q (silent_quiet _ _ Q1)) as (-> & _ & _). exact F.
  Qed.
  Lemma push_fresh o n sched evs c : k_run ne (k_new o n) sched = Ok (evs, c) ->
    forall pre t k mid s g a post, evs = pre ++ EInv t k :: mid ++ EObj t s g a :: post -> quiet t mid -> through s k -> fresh t s pre.
  Proof. intros. apply lasts_fresh. eapply push_lasts; eauto. Qed.
  (** Once nobody is inside a call through a pusher of a cleared aggregator, pushers of it are dead for ever. *)
  Lemma lasts_no s t evs : lasts s t evs -> forall pre rest, evs = pre ++ rest -> clear_called s pre -> (forall t k, inside t k pre -> ~ through s k) -> False.
  Proof.
    induction 1 as [t evs N|t t' k' a b N SI TK LS IH]; intros pre rest EQ CC NO.
    - apply N. destruct CC as (l & cl & IN). exists l, cl. rewrite EQ, calls_app, map_app. apply in_or_app. auto.
    - symmetry in EQ. destruct (split_late _ _ _ _ _ EQ) as [(b1 & ->)|(e1 & -> & ->)]; [|eapply IH; eauto].
      apply (NO t' k'); auto. exists a, b1. split; auto. rewrite <- app_assoc in EQ. apply app_inv_head in EQ. injection EQ as EQ. subst b. apply Forall_app in SI. apply SI.
  Qed.
  Lemma push_never o n sched evs c : k_run ne (k_new o n) sched = Ok (evs, c) ->
    forall pre s rest, evs = pre ++ rest -> clear_called s pre -> (forall t k, inside t k pre -> ~ through s k) ->
    forall mid t g a post k, rest = mid ++ EObj t s g a :: post -> inside t k (pre ++ mid) -> ~ through s k.
  Proof.
    intros E pre s rest EQ CC NO mid t g a post k -> (x & y & IE & SI) TK. rewrite app_assoc, IE, <- app_assoc in EQ.
    pose proof (push_lasts _ _ _ _ _ E _ _ _ _ _ _ _ _ EQ (silent_quiet _ _ SI) TK) as LS.
    destruct (split_late _ _ _ _ _ IE) as [(b1 & ->)|(e1 & _ & ->)]; [|eapply lasts_no; eauto].
    apply (NO t k); auto. exists x, b1. split; auto. rewrite <- app_assoc in IE. apply app_inv_head in IE. injection IE as <-. apply Forall_app in SI. apply SI.
  Qed.
  (** A pusher made after clear() is dead. *)
  Definition UInv (c : conc) : Prop := forall t p x c1 c2 dest, nth_error (k_thr c) t = Some (PLocked p x c1 c2 dest) -> pu_id (rp_pu p) = true.
  Lemma UInv_run o n sched evs c : k_run ne (k_new o n) sched = Ok (evs, c) -> UInv c.
  Proof.
    assert (GEN : forall sched c evs c', UInv c -> k_run ne c sched = Ok (evs, c') -> UInv c').
    { induction sched0 as [|[t k] sched0 IH]; intros c0 evs' c' U E; cbn [k_run] in E; [now injection E as <- <-|].
      bind_in E x. destruct x as [ev c1]. bind_in E y. destruct y as [evs2 c2]. injection E as <- <-. eapply IH; [|eauto].
      destruct (step_Kstep _ _ _ _ _ _ Ex) as [(_ & _ & ->)|(p & p' & ET & S & TH)]; auto.
      intros t' q x d1 d2 dest Q. rewrite TH in Q. destruct (Nat.eq_dec t t') as [<-|N]; [|rewrite set_nth_other in Q by auto; eauto].
      rewrite set_nth_same in Q by (now apply nth_error_lt in ET). injection Q as ->. clear TH Ex.
      revert S. generalize (k_reg c1) (k_dead c1). intros r' d' S. remember (PLocked q x d1 d2 dest) as z. destruct S; try discriminate; [subst; eauto|]. injection Heqz as -> -> -> -> ->. auto. }
    intros E. eapply GEN; eauto. intros t p x c1 c2 dest H. simpl in H. apply nth_error_In, repeat_spec in H. discriminate.
  Qed.
  Lemma pusher_token o n sched evs c : k_run ne (k_new o n) sched = Ok (evs, c) ->
    forall pre t k p g a post, evs = pre ++ EObj t (rp_obj p) g a :: post -> inside t k pre -> by_pusher p k -> pu_id (rp_pu p) = true.
  Proof.
    intros E pre t k p g a post EQ IK TK.
    destruct (run_split _ _ _ _ _ _ _ _ E EQ) as (s1 & t1 & k1 & s2 & evs1 & ev & evs2 & d1 & d2 & e1 & e2 & -> & R1 & S1 & R2 & EV & EP & EPO).
    destruct (one_obj _ _ _ _ _ _ _ _ _ _ S1 EV eq_refl) as (-> & _). rewrite app_nil_r in EP. subst evs1. simpl in EV.
    pose proof (run_Good _ _ _ _ _ _ R1) as G. pose proof (UInv_run _ _ _ _ _ R1) as U.
    destruct (step_Kstep _ _ _ _ _ _ S1) as [(_ & -> & _)|(q & q' & ET & S & TH)]; [discriminate|].
    assert (TT : t1 = t).
    { revert S. generalize (k_reg d2) (k_dead d2). intros r' dd S. destruct S; subst; try discriminate; unfold lin in EV; simpl in EV; congruence. }
    subst t1.
    assert (NI : q <> PIdle).
    { intros ->. revert S. generalize (k_reg d2) (k_dead d2). intros r' dd S. remember PIdle as z. destruct S; subst; discriminate. }
    destruct (li_in _ _ (go_late _ _ _ _ _ G) _ _ ET NI) as (k' & IN' & FR). pose proof (inside_fun _ _ _ _ IN' IK) as ->.
    revert S. generalize (k_reg d2) (k_dead d2). intros r' dd S. destruct S; subst; simpl in FR; try discriminate EV; try contradiction; try (destruct k as [[]|]; simpl in FR, TK; contradiction).
    all: subst k; simpl in TK; subst; eapply U; eauto.
  Qed.
  Lemma pusher_dead o n sched evs c : k_run ne (k_new o n) sched = Ok (evs, c) ->
    forall pre t id h p post, evs = pre ++ ELin t (ADo (RgPusher id h)) (RPusher (Some p)) :: post -> clear_called (rp_obj p) pre -> pu_id (rp_pu p) = false.
  Proof.
    intros E pre t id h p post EQ CC.
    destruct (run_split _ _ _ _ _ _ _ _ E EQ) as (s1 & t1 & k1 & s2 & evs1 & ev & evs2 & d1 & d2 & e1 & e2 & -> & R1 & S1 & R2 & EV & EP & EPO).
    pose proof (run_Good _ _ _ _ _ _ R1) as G. assert (IN : In (ELin t (ADo (RgPusher id h)) (RPusher (Some p))) ev) by (rewrite EV; apply in_or_app; right; left; auto).
    destruct (step_Kstep _ _ _ _ _ _ S1) as [(_ & -> & _)|(q & q' & ET & S & TH)]; [destruct IN|].
    assert (MADE : rg_pusher id h (k_reg d1) = Ok (Some p) -> calls (rp_obj p) e1 = [] -> pu_id (rp_pu p) = false).
    { intros H C0. unfold rg_pusher in H. destruct (rg_get id (k_reg d1)) as [[[pos [s g]]|]| |] eqn:EG; cbn [bind] in H; try discriminate H. injection H as <-.
      simpl in CC, C0 |- *. apply (obj_id _ _ _ _ s g G).
      - left. exists pos. eapply get_in; eauto.
      - destruct CC as (l & cl & I). exists l, cl. subst pre. rewrite calls_app, C0, app_nil_r in I. exact I. }
    assert (X : rg_pusher id h (k_reg d1) = Ok (Some p) /\ calls (rp_obj p) ev = []).
    { clear EV MADE EQ. revert S. generalize (k_reg d2) (k_dead d2). intros r' dd S.
      destruct S; subst; unfold lin in IN; simpl in IN; try contradiction;
        try (destruct reg; simpl in IN; repeat (destruct IN as [IN|IN]; [discriminate IN|]); try contradiction; destruct (out_ptr o0); simpl in IN; repeat (destruct IN as [IN|IN]; [discriminate IN|]); contradiction);
        repeat (destruct IN as [IN|IN]; [try discriminate IN|]); try contradiction; injection IN; intros; subst; (split; [|reflexivity]); auto.
      simpl in H2. bind_in H2 pp. now injection H2 as -> _. }
    destruct X as (X & Y). apply MADE; auto. rewrite EV, calls_app in Y. apply app_eq_nil in Y. apply Y.
  Qed.

  (** [AHeld] effects follow clear(). *)
  Lemma held_after o n sched evs c : k_run ne (k_new o n) sched = Ok (evs, c) ->
    forall pre e post t p x c1 c2 r, evs = pre ++ e :: post -> took t (AHeld p x c1 c2) r e -> clear_called (rp_obj p) pre.
  Proof.
    intros E pre e post t p x c1 c2 r EQ TK.
    destruct (run_split _ _ _ _ _ _ _ _ E EQ) as (s1 & t1 & k1 & s2 & evs1 & ev & evs2 & d1 & d2 & e1 & e2 & -> & R1 & S1 & R2 & EV & -> & EPO).
    pose proof (run_Good _ _ _ _ _ _ R1) as G.
    assert (ADD : clear_called (rp_obj p) evs1 -> clear_called (rp_obj p) (evs1 ++ e1)).
    { intros (l & cl & IN). exists l, cl. rewrite calls_app, map_app. apply in_or_app. auto. }
    apply ADD. destruct (step_Kstep _ _ _ _ _ _ S1) as [(_ & -> & _)|(q & q' & ET & S & TH)]; [destruct e1; discriminate|].
    assert (IN : In e ev) by (rewrite EV; apply in_or_app; right; left; auto). clear EV EQ EPO.
    assert (PA : forall pp xx a1 a2, push_act d1 pp xx a1 a2 = AHeld p x c1 c2 -> clear_called (rp_obj p) evs1).
    { intros pp xx a1 a2 H. unfold push_act in H. destruct (cleared (rp_obj pp) d1) eqn:CL; [|discriminate]. injection H as -> _ _ _. eapply cleared_called; eauto. }
    revert S. generalize (k_reg d2) (k_dead d2). intros r' dd S. unfold took in TK.
    destruct S; subst; unfold lin in IN; simpl in IN; try contradiction;
      try (repeat (destruct IN as [IN|IN]; [subst; destruct TK; discriminate|]); destruct IN; fail).
    all: destruct IN as [<-|IN]; [destruct TK; discriminate|].
    all: destruct IN as [IN|IN]; [|first [now destruct IN | destruct (out_ptr o0); [destruct IN as [<-|[]]; destruct TK; discriminate|destruct IN]]].
    all: destruct reg; subst e; destruct TK as [TK|TK]; try discriminate TK; injection TK; intros; eapply PA; eassumption.
  Qed.
  Lemma no_clear_held o n sched evs c : Forall (fun q => k_no_clear (snd q)) sched -> k_run ne (k_new o n) sched = Ok (evs, c) ->
    forall e t p x c1 c2 r, In e evs -> ~ took t (AHeld p x c1 c2) r e.
  Proof.
    intros F E e t p x c1 c2 r IN TK. apply in_split in IN. destruct IN as (pre & post & EQ).
    destruct (held_after _ _ _ _ _ E _ _ _ _ _ _ _ _ _ EQ TK) as (l & cl & IN).
    assert (OP : objP gnot_clear evs).
    { assert (F2 : Forall (fun q => kopP gnot_clear (snd q)) sched) by (eapply Forall_impl; [|exact F]; intros q; apply no_clear_kopP).
      eapply (ops_run ne gnot_clear); simpl; eauto. }
    apply (objP_calls _ (rp_obj p)) in OP. rewrite Forall_forall in OP. destruct (OP (GoClear l cl)). rewrite EQ, calls_app, map_app. apply in_or_app. auto.
  Qed.

  (** A push made after clear(), when nobody else is inside a call through a pusher of the same aggregator, does nothing. *)
  Lemma after_clear o n sched evs c : k_run ne (k_new o n) sched = Ok (evs, c) ->
    forall pre t k s rest, evs = pre ++ EInv t k :: rest -> through s k -> clear_called s pre ->
    (forall t' k', inside t' k' pre -> through s k' -> t' = t) ->
    exists p x c1 c2 y rest', rp_obj p = s /\ rest = ELin t (ADo (RgPush p x c1 c2)) (RRecs []) :: ERet t y :: rest' /\ (y = RRecs [] \/ y = RNamed []).
  Proof.
    intros E pre t k s rest EQ TK CC NO.
    destruct (run_split _ _ _ _ _ _ _ _ E EQ) as (s1 & t1 & k1 & s2 & evs1 & ev & evs2 & d1 & d2 & e1 & e2 & -> & R1 & S1 & R2 & EV & EP & EPO).
    pose proof (run_Good _ _ _ _ _ _ R1) as G.
    pose proof (TInv_step _ _ _ _ _ _ _ _ G (TInv_run _ _ _ _ _ R1) S1) as T.
    destruct (step_Kstep _ _ _ _ _ _ S1) as [(_ & -> & _)|(q & q' & ET & S & TH)]; [destruct e1; discriminate|].
    revert S. remember (k_reg d2) as r' eqn:HR. remember (k_dead d2) as dd eqn:HD. clear HR HD. intros S.
    assert (IN : In (EInv t k) ev) by (rewrite EV; apply in_or_app; right; left; auto).
    destruct S; subst; unfold lin in IN; simpl in IN;
      repeat (destruct IN as [IN|IN]; [first [discriminate IN | injection IN as -> EK; subst; try contradiction] |]); try contradiction;
      try (destruct reg; repeat (destruct IN as [IN|IN]; [discriminate IN|]); contradiction).
    - destruct op; simpl in TK; contradiction.
    - destruct e1 as [|a e1]; [|simpl in EV; injection EV as _ EV; destruct e1 as [|a1 e1]; [discriminate|]; injection EV as _ EV; destruct e1 as [|a2 e1]; [discriminate|]; injection EV as _ EV; destruct e1; discriminate].
      injection EV as <-. exists p, x, c1, c2. eexists _, evs2. split; [destruct dest; exact TK|]. split; [reflexivity|]. destruct dest; auto.
    - destruct e1 as [|a e1]; [|simpl in EV; injection EV as _ EV; destruct e1; discriminate]. exfalso.
      assert (EQ' : nth_error (k_thr d2) t = Some (PLocked p x c1 c2 dest)) by (rewrite TH; apply set_nth_same; eapply nth_error_lt; eauto).
      destruct (T _ _ (rp_obj p) EQ' (Nat.eqb_refl _)) as (pre1 & k1' & mid1 & EE & Q1 & _ & LS). pose proof (lasts_fresh _ _ _ LS) as F.
      destruct (last_inv t _ _ _ _ _ _ EE (Forall_nil _) (silent_quiet _ _ Q1)) as (-> & _ & _). rewrite app_nil_r in CC, NO.
      assert (SS : rp_obj p = s) by (destruct dest; exact TK). rewrite SS in F. destruct F as [F|(t' & k' & N & I1 & I2)]; [auto|]. apply N. eauto.
    - destruct IN as [IN|IN]; [destruct reg; discriminate|]. destruct (out_ptr o0); [destruct IN as [IN|[]]; discriminate|destruct IN].
  Qed.
End Clear.
