(** A call that no other thread interferes with does what it does on a registry used by one thread. *)
From Coq Require Import ZArith List Bool Lia Arith Ascii.
From Verif Require Import Base ModelTypes ModelReducer SpecReducer ModelSeparator SpecSeparator ModelAggregator SpecAggregator
  ModelRegistry SpecRegistry RegProofs RegFinal ModelConc SpecConc ConcProofs ConcInv ConcLin ConcNames ConcFinal ConcHandler ConcClear.
Import ListNotations.
Local Open Scope Z_scope.

Section Alone.
  Variable ne : nat -> list Z -> list Z.
  Definition only (t : nat) (l : list event) : Prop := Forall (fun e => match e with ELin t' _ _ => t' = t | _ => True end) l.
  Lemma alone_only t l : alone t l -> only t l.
  Proof. intros H. eapply Forall_impl; [|exact H]. intros [| | | | |]; simpl; tauto. Qed.
  Lemma only_app t a b : only t (a ++ b) <-> only t a /\ only t b.
  Proof. apply Forall_app. Qed.

  (** * pop_all *)
  Lemma pop_loop_snoc f clk d : forall i r l r1 id l2 r2, rg_pop_loop ne f clk d r = Ok (l, r1) -> d_pos2id i (rg_dict r1) = Ok id ->
    rg_pop_loop ne f clk [i] r1 = Ok (l2, r2) -> rg_pop_loop ne f clk (d ++ [i]) r = Ok (l ++ l2, r2).
  Proof.
    induction d as [|j d IH]; intros i r l r1 id l2 r2 A B C.
    - simpl in A. injection A as <- <-. exact C.
    - cbn [rg_pop_loop app] in A |- *. bind_in A jd. rewrite ?Ejd. cbn [bind]. bind_in A p. rewrite ?Ep. cbn [bind]. bind_in A lr. destruct lr as [la ra]. rewrite ?Elr. cbn [bind].
      bind_in A lr2. destruct lr2 as [lb rb]. injection A as <- <-. rewrite (IH _ _ _ _ _ _ _ Elr2 B C). cbn [bind]. rewrite app_assoc. reflexivity.
  Qed.
  Definition APc (q : pc) (k : kop) (r0 r : registry) : Prop :=
    match q with
    | PPop f clk is acc => k = KOp (RgPopAll f clk) /\ exists d, seq 0 (length (rg_arr r0)) = d ++ is /\ rg_pop_loop ne f clk d r0 = Ok (acc, r)
    | PPopped f clk is acc id s => k = KOp (RgPopAll f clk) /\ exists d i r1 pos g g1 o1, seq 0 (length (rg_arr r0)) = d ++ i :: is /\ rg_pop_loop ne f clk d r0 = Ok (acc, r1) /\
        d_pos2id i (rg_dict r1) = Ok id /\ rg_get id r1 = Ok (Some (pos, (s, g))) /\
        g_call ne (GoSeparate 0 false f (clk (rg_get_name id r1))) g = Ok (o1, g1) /\ r = rg_set pos (Some (s, g1)) r1
    | _ => True
    end.
  Variable o : rgopts.
  Variable n : nat.
  Definition AInv (evs : list event) (c : conc) : Prop :=
    forall t q, nth_error (k_thr c) t = Some q -> q <> PIdle ->
      exists pre k mid r0, evs = pre ++ EInv t k :: mid /\ silent t mid /\ runs ne (rg_new o) pre r0 /\ (only t mid -> APc q k r0 (k_reg c)).
  Lemma runs_fun r ev r1 r2 : runs ne r ev r1 -> runs ne r ev r2 -> r1 = r2.
  Proof. unfold runs. intros -> E. now injection E. Qed.
  Lemma only_other t t' c k p ev r' d' p' : t <> t' -> Kstep ne t c k p ev r' d' p' -> only t' ev -> effects ev = [].
  Proof.
    intros N S O.
    assert (A : only t ev).
    { destruct S; subst; unfold only, lin; repeat (apply Forall_app; split); repeat constructor; try (destruct reg; reflexivity). destruct (out_ptr o0); repeat constructor. }
    clear S. induction ev as [|e ev IH]; auto. inversion A; inversion O; subst. destruct e; simpl; auto; congruence.
  Qed.
  Lemma runs_quiet ev r1 r2 evs : effects ev = [] -> runs ne (rg_new o) evs r1 -> runs ne (rg_new o) (evs ++ ev) r2 -> r1 = r2.
  Proof. unfold runs. intros E A B. rewrite effects_app, E, app_nil_r in B. rewrite A in B. now injection B. Qed.
  Lemma get_set id r pos s g g1 : rg_get id r = Ok (Some (pos, (s, g))) -> rg_get id (rg_set pos (Some (s, g1)) r) = Ok (Some (pos, (s, g1))).
  Proof.
    unfold rg_get. destruct (id =? bad_id); [discriminate|]. simpl. intros E. bind_in E p. rewrite ?Ep. cbn [bind].
    destruct (nth_error (rg_arr r) p) as [[ob|]|] eqn:EN; try discriminate. injection E as -> ->. rewrite set_nth_same; auto. now apply nth_error_lt in EN.
  Qed.
  Lemma set_nth_twice {A} i (x y : A) l : set_nth i y (set_nth i x l) = set_nth i y l.
  Proof. revert i. induction l; intros [|i]; simpl; auto. now rewrite IHl. Qed.
  Lemma AInv_step evs c t k ev c' : Good ne o n evs c -> AInv evs c -> k_step ne t k c = Ok (ev, c') -> AInv (evs ++ ev) c'.
  Proof.
    intros G T E. pose proof (Good_step _ _ _ _ _ _ _ _ _ G E) as G'. destruct (step_Kstep _ _ _ _ _ _ E) as [(_ & -> & ->)|(p & p' & ET & S & TH)]; [now rewrite app_nil_r|].
    intros t' q Q NI. rewrite TH in Q. destruct (Nat.eq_dec t t') as [<-|N].
    - rewrite set_nth_same in Q by (now apply nth_error_lt in ET). injection Q as ->. clear TH E.
      assert (DP : p = PIdle \/ p <> PIdle) by (destruct p; auto; right; discriminate). destruct DP as [->|NP].
      + exists evs. pose proof (go_runs _ _ _ _ _ G) as RU.
        revert S NI. generalize (k_reg c') (k_dead c'). intros r' d' S NI. remember PIdle as z. destruct S; subst; try discriminate Heqz; try (destruct NI; reflexivity).
        all: eexists _, _, (k_reg c); split; [reflexivity|]; split; [repeat constructor|]; split; [exact RU|]; intros _; simpl; auto.
        split; auto. exists []. auto.
      + destruct (T _ _ ET NP) as (pre & k0 & mid & r0 & -> & SI & RU & AP). exists pre, k0, (mid ++ ev), r0. rewrite <- app_assoc. split; auto.
        split; [apply Forall_app; split; auto; eapply silent_next; [| |exact S]; auto|]. split; auto.
        intros ON. apply only_app in ON. destruct ON as (O1 & _). specialize (AP O1). pose proof (ki_ok _ (go_inv _ _ _ _ _ G)) as RO. clear T G G' ET RU O1.
        revert S. generalize (k_reg c') (k_dead c'). intros r' d' S. destruct S; subst; try (destruct NI; reflexivity); try (destruct NP; reflexivity); cbn [APc]; auto; cbn [APc] in AP.
        * destruct AP as (-> & d & EQ & L). split; auto. exists (d ++ [i]). split; [now rewrite <- app_assoc|].
          replace acc with (acc ++ []) by apply app_nil_r. eapply pop_loop_snoc; eauto. cbn [rg_pop_loop]. rewrite H. cbn [bind]. rewrite H0. reflexivity.
        * destruct AP as (-> & d & EQ & L). split; auto. destruct (call_shape _ _ _ _ _ _ _ H0) as (g1 & g2 & _ & CA & [(_ & pos' & A & E1 & _)|(_ & NA & _)]); [|exfalso; eapply NA; eapply get_in; eauto].
          pose proof (get_in _ _ _ _ _ H) as A'. assert (pos' = pos) by (eapply (ro_uniq _ RO); eauto). subst pos'. unfold at_pos in A. rewrite A' in A. injection A as <-.
          exists d, i, (k_reg c), pos, g0, g2, o0. repeat (split; [eauto|]). exact E1.
        * destruct AP as (-> & d & i & r1 & pos & g0 & g1 & o1 & EQ & L & ED & EG & CA & ER). split; auto. exists (d ++ [i]). split; [now rewrite <- app_assoc|].
          pose proof (get_set _ _ _ _ _ g1 EG) as EG'. rewrite <- ER in EG'. pose proof (get_in _ _ _ _ _ EG') as A'.
          destruct (call_shape _ _ _ _ _ _ _ H) as (g3 & g2 & _ & CB & [(_ & pos' & A & E1 & _)|(_ & NA & _)]); [|exfalso; eapply NA; eauto].
          assert (pos' = pos) by (eapply (ro_uniq _ RO); eauto). subst pos'. unfold at_pos in A. rewrite A' in A. injection A as <-.
          assert (NM : rg_get_name id (k_reg c) = rg_get_name id r1) by (rewrite ER; reflexivity).
          rewrite NM. eapply pop_loop_snoc; eauto. cbn [rg_pop_loop]. rewrite ED. cbn [bind]. rewrite EG. cbn [bind]. rewrite CA. cbn [bind]. fold g. rewrite CB. cbn [bind].
          rewrite app_nil_r. rewrite E1, ER. unfold rg_set. simpl. rewrite set_nth_twice. reflexivity.
    - rewrite set_nth_other in Q by auto. destruct (T _ _ Q NI) as (pre & k0 & mid & r0 & -> & Q0 & RU & AP). exists pre, k0, (mid ++ ev), r0. rewrite <- app_assoc. split; auto.
      split; [apply Forall_app; split; auto; eapply silent_other; eauto|]. split; auto. intros ON. apply only_app in ON. destruct ON as (O1 & O2).
      pose proof (only_other _ _ _ _ _ _ _ _ _ N S O2) as EE. rewrite <- (runs_quiet _ _ _ _ EE (go_runs _ _ _ _ _ G) (go_runs _ _ _ _ _ G')). auto.
  Qed.
  Lemma AInv_run sched evs c : k_run ne (k_new o n) sched = Ok (evs, c) -> AInv evs c.
  Proof.
    assert (GEN : forall sched evs c evs' c', Good ne o n evs c -> AInv evs c -> k_run ne c sched = Ok (evs', c') -> AInv (evs ++ evs') c').
    { induction sched0 as [|[t k] sched0 IH]; intros evs0 c0 evs' c' G T E; cbn [k_run] in E; [injection E as <- <-; now rewrite app_nil_r|].
      bind_in E x. destruct x as [ev c1]. bind_in E y. destruct y as [evs2 c2]. injection E as <- <-. rewrite app_assoc. eapply IH; [eapply Good_step; eauto|eapply AInv_step; eauto|eauto]. }
    intros E. apply (GEN sched [] (k_new o n) evs c); auto; [apply Good_new|]. intros t q H NI. simpl in H. apply nth_error_In, repeat_spec in H. contradiction.
  Qed.
  Lemma pop_alone sched evs c : k_run ne (k_new o n) sched = Ok (evs, c) ->
    forall pre t f clk body x post, evs = pre ++ EInv t (KOp (RgPopAll f clk)) :: body ++ ERet t x :: post -> quiet t body -> only t body ->
    exists r0 r1, runs ne (rg_new o) pre r0 /\ runs ne (rg_new o) (pre ++ EInv t (KOp (RgPopAll f clk)) :: body) r1 /\ rg_do ne (RgPopAll f clk) r0 = Ok (x, r1).
  Proof.
    intros E pre t f clk body x post EQ Q ON.
    assert (EQ' : evs = (pre ++ EInv t (KOp (RgPopAll f clk)) :: body) ++ ERet t x :: post) by (rewrite EQ, <- app_assoc; reflexivity). clear EQ.
    destruct (run_split _ _ _ _ _ _ _ _ E EQ') as (s1 & t1 & k1 & s2 & evs1 & ev & evs2 & d1 & d2 & e1 & e2 & -> & R1 & S1 & R2 & EV & EP & EPO).
    pose proof (run_Good _ _ _ _ _ _ R1) as G. pose proof (AInv_run _ _ _ R1) as T. clear E EQ' R2 EPO.
    destruct (step_Kstep _ _ _ _ _ _ S1) as [(_ & -> & _)|(q & q' & ET & S & TH)]; [destruct e1; discriminate|].
    assert (TT : t1 = t).
    { destruct (Nat.eq_dec t1 t) as [|N]; auto. exfalso. pose proof (silent_other _ _ _ _ _ _ _ _ _ _ N S) as SO. rewrite EV in SO. apply Forall_app in SO. destruct SO as (_ & SO). inversion SO; subst. congruence. }
    subst t1. assert (RT : In (ERet t x) ev) by (rewrite EV; apply in_or_app; right; left; auto).
    assert (DP : q = PIdle \/ q <> PIdle) by (destruct q; auto; right; discriminate). destruct DP as [->|NP].
    - exfalso.
      assert (ALIGN : forall k' e y, [EInv t k'; e; ERet t y] = e1 ++ ERet t x :: e2 -> (match e with ELin _ _ _ => True | _ => False end) -> KOp (RgPopAll f clk) = k').
      { intros k' e y H LE. destruct e1 as [|a1 e1]; [discriminate|]. injection H as <- H. destruct e1 as [|a2 e1]; [injection H as -> _; destruct LE|]. injection H as <- H.
        destruct e1 as [|a3 e1]; [|injection H as _ H; destruct e1; discriminate]. injection H as -> _. destruct (last_inv t pre _ body _ k' [e] EP Q) as (_ & -> & _); auto.
        constructor; [|constructor]. destruct e; try contradiction; exact I. }
      revert S. generalize (k_reg d2) (k_dead d2). intros r' d' S. remember PIdle as z. destruct S; subst; try discriminate Heqz; simpl in RT;
        try (exfalso; repeat (destruct RT as [RT|RT]; [discriminate RT|]); exact RT).
      + pose proof (ALIGN _ _ _ EV I) as X. injection X as <-. contradiction.
      + pose proof (ALIGN _ _ _ EV I) as X. discriminate.
      + pose proof (ALIGN _ _ _ EV I) as X. destruct dest; discriminate.
    - destruct (T _ _ ET NP) as (pre0 & k0 & mid & r0 & EQ1 & SI & RU & AP). subst evs1.
      assert (QE : quiet t (mid ++ e1)).
      { apply quiet_app. split; [apply silent_quiet; auto|]. pose proof (quiet_next _ _ _ _ _ _ _ _ _ NP S) as QN. rewrite EV in QN. apply quiet_app in QN. apply QN. }
      pose proof (go_runs _ _ _ _ _ G) as RG.
      pose proof EP as EP1. rewrite <- app_assoc in EP1. simpl in EP1. destruct (last_inv t _ _ _ _ _ _ EP1 Q QE) as (-> & <- & ->).
      apply only_app in ON. destruct ON as (O1 & _). specialize (AP O1).
      destruct (li_in _ _ (go_late _ _ _ _ _ G) _ _ ET NP) as (k2 & (ia & ib & EI & SB) & FR).
      assert (k2 = KOp (RgPopAll f clk)).
      { destruct (last_inv t _ _ _ _ _ _ EI (silent_quiet _ _ SI) (silent_quiet _ _ SB)) as (_ & <- & _). reflexivity. }
      subst k2. clear EI SB. exists r0, (k_reg d1). split; auto.
      revert S. generalize (k_reg d2) (k_dead d2). intros r' d' S. destruct S; subst; try (destruct NP; reflexivity); unfold lin in RT; simpl in RT, FR, AP;
        try (exfalso; repeat (destruct RT as [RT|RT]; [first [discriminate RT | destruct reg; discriminate RT]|]); exact RT); try contradiction.
      + destruct b; contradiction.
      + destruct AP as (X & d & ED & L). injection X as <- <-. rewrite app_nil_r in ED. subst d. destruct e1 as [|a e1]; [|injection EV as _ EV; destruct e1; discriminate]. injection EV as <- _. rewrite app_nil_r.
        split; auto. cbn [rg_do]. unfold rg_pop_all. rewrite L. reflexivity.
      + exfalso. destruct RT as [RT|RT]; [discriminate|]. destruct RT as [RT|RT]; [destruct reg; discriminate|]. destruct (out_ptr o0); [destruct RT as [RT|[]]; discriminate|destruct RT].
  Qed.

  (** * All calls *)
  Lemma runs_cut a : forall r b r2, runs ne r (a ++ b) r2 -> exists r1, runs ne r a r1 /\ runs ne r1 b r2.
  Proof.
    induction a as [|e a IH]; intros r b r2 H; [exists r; split; [apply runs_nil|exact H]|].
    destruct e as [t k|t ac x|t ac x|t s g x|t l|t x]; try (destruct (IH _ _ _ H) as (r1 & A & B); exists r1; split; [exact A|exact B]).
    unfold runs in H. simpl in H. bind_in H y. destruct y as [y r']. bind_in H z. destruct z as [z r'']. injection H as -> EZ ->.
    destruct (IH r' b r2) as (r1 & A & B); [unfold runs; rewrite Ez, EZ; reflexivity|]. exists r1. split; auto. apply (runs_cons _ _ t ac x r'); auto.
  Qed.
  Lemma only_effects t l : only t l -> effects (of t l) = effects l.
  Proof.
    induction l as [|e l IH]; intros H; auto. inversion H; subst. destruct e; simpl; try (destruct (_ =? t)%nat eqn:X; simpl; auto); auto.
    - rewrite IH; auto.
    - simpl in H2. subst. rewrite Nat.eqb_refl in X. discriminate.
  Qed.
  Lemma alone_in t l e : alone t l -> In e (of t l) -> match e with ELin _ (AHeld _ _ _ _) _ | ELate _ _ _ => False | _ => True end.
  Proof.
    intros H I. apply filter_In in I. destruct I as (I & J). apply (proj1 (Forall_forall _ _) H) in I. destruct e; simpl in *; auto.
    - destruct a; tauto.
    - apply Nat.eqb_eq in J. contradiction.
  Qed.
  Lemma objs_all r : objs_at r (all r) = objects (rg_arr r).
  Proof.
    unfold objs_at, all, objects. generalize (rg_arr r). induction l as [|a l IH]; auto. cbn [length seq flat_map nth_error]. rewrite <- seq_shift, flat_map_concat_map, map_map, <- flat_map_concat_map. simpl. rewrite IH. destruct a as [[]|]; reflexivity.
  Qed.
  Lemma run_one a x r r1 : a_run ne r [a] = Ok ([x], r1) -> a_do ne a r = Ok (x, r1).
  Proof. cbn [a_run]. intros E. bind_in E z. destruct z as [z r']. injection E as -> ->. reflexivity. Qed.
  Lemma run_two a b x y r r2 : a_run ne r [a; b] = Ok ([x; y], r2) -> exists r1, a_do ne a r = Ok (x, r1) /\ a_do ne b r1 = Ok (y, r2).
  Proof.
    cbn [a_run]. intros E. bind_in E z. destruct z as [z r']. bind_in E w. destruct w as [w rw]. injection E as -> -> ->. bind_in Ew u. destruct u as [u ru]. injection Ew as -> ->. eauto.
  Qed.
  Lemma call_alone sched evs c : k_run ne (k_new o n) sched = Ok (evs, c) ->
    forall pre t k body x post, evs = pre ++ EInv t k :: body ++ ERet t x :: post -> quiet t body -> alone t body ->
    exists r0 r1, runs ne (rg_new o) pre r0 /\ runs ne (rg_new o) (pre ++ EInv t k :: body) r1 /\ does ne k r0 x r1.
  Proof.
    intros E pre t k body x post EQ Q AL. pose proof (alone_only _ _ AL) as ON.
    pose proof (run_Good _ _ _ _ _ _ E) as G. pose proof (completed_call ne o n evs c t pre k body x post G EQ Q) as CK.
    pose proof (go_runs _ _ _ _ _ G) as RU. rewrite EQ in RU. replace (pre ++ EInv t k :: body ++ ERet t x :: post) with ((pre ++ EInv t k :: body) ++ ERet t x :: post) in RU by (rewrite <- app_assoc; reflexivity).
    destruct (runs_cut _ _ _ _ RU) as (r1 & R1 & _). destruct (runs_cut _ _ _ _ R1) as (r0 & R0 & RB). clear RU.
    pose proof (fun e => alone_in t body e AL) as NO. unfold runs in RB. simpl in RB. fold (effects body) in RB. rewrite <- (only_effects _ _ ON) in RB.
    assert (EN : forall v, k = KOp (RgEnable v) -> forall ss, of t body = ELin t (AFlag v) RUnit :: map (fun s => ELin t (AEnableOne s v) RUnit) ss -> ss = objects (rg_arr r0)).
    { intros v EK ss EB. destruct (cover_run ne o n sched evs c E _ _ _ _ _ _ EQ Q) as (r0' & R0' & FI). rewrite (runs_fun _ _ _ _ R0' R0) in FI. rewrite EK in FI. simpl in FI.
      rewrite <- objs_all, <- FI. transitivity (switched t (of t body)).
      - rewrite EB. unfold switched. simpl. clear. induction ss; simpl; auto. rewrite Nat.eqb_refl. simpl. now f_equal.
      - clear. induction body as [|e l IH]; auto. destruct e as [|t' [[]| | |]| | | |]; simpl; try (destruct (t' =? t)%nat eqn:X; simpl; auto); try (destruct (t0 =? t)%nat eqn:Y; simpl; auto); auto; try (rewrite X); simpl; now rewrite ?IH. }
    assert (OK0 : ROk r0).
    { assert (EQ2 : evs = pre ++ EInv t k :: (body ++ ERet t x :: post)) by exact EQ.
      destruct (run_split _ _ _ _ _ _ _ _ E EQ2) as (s1 & t1 & k1 & s2 & evs1 & ev & evs2 & d1 & d2 & e1 & e2 & _ & RR & S1 & _ & EV & EP & _).
      pose proof (run_Good _ _ _ _ _ _ RR) as GG. assert (effects e1 = []).
      { destruct (step_Kstep _ _ _ _ _ _ S1) as [(_ & -> & _)|(q & q' & ET & S & TH)]; [destruct e1; discriminate|].
        assert (HD : forall e l, ev = e :: l -> Forall (fun e => match e with EInv _ _ => False | _ => True end) l -> e1 = []).
        { intros e l -> F. destruct e1 as [|a e1]; auto. injection EV as _ EV. subst l. apply Forall_app in F. destruct F as (_ & F). inversion F. contradiction. }
        assert (NI : Forall (fun e => match e with EInv _ _ => False | _ => True end) ev -> e1 = []).
        { intros F. rewrite EV in F. apply Forall_app in F. destruct F as (_ & F). inversion F. contradiction. }
        assert (e1 = []) as ->; [|reflexivity].
        clear EV. revert HD NI. destruct S; subst; intros HD NI; try (eapply HD; [reflexivity|]; repeat constructor; fail); try (apply NI; unfold lin; repeat (apply Forall_app; split); repeat constructor; try (destruct reg; exact I); fail).
        all: try (destruct dest; eapply HD; [reflexivity|]; repeat constructor).
        apply NI. unfold lin. constructor; [exact I|]. constructor; [destruct reg; exact I|]. destruct (out_ptr o0); repeat constructor. }
      assert (RE : runs ne (rg_new o) pre (k_reg d1)).
      { unfold runs. rewrite EP, effects_app, H, app_nil_r. apply (go_runs _ _ _ _ _ GG). }
      rewrite (runs_fun _ _ _ _ R0 RE). apply GG. }
    clear G. assert (GOAL : (forall f clk, k <> KOp (RgPopAll f clk)) -> does ne k r0 x r1).
    { intros NP. remember (of t body) as l eqn:EL. clear EQ E EL. destruct CK as [op e y SG TK|e m d c1 c2 id ev y TK|e m h now id y|f clk bd l VI|v ss|p x0 c1 c2 e y TK|p id x0 c1 c2 ev PU|p id x0 c1 c2 ev recs m PU].
      - destruct TK as [-> | -> ]; [|destruct (NO _ (or_introl eq_refl))]. exact (run_one _ _ _ _ RB).
      - destruct TK as [-> | -> ]; [|destruct (NO _ (or_intror (or_introl eq_refl)))]. destruct (run_two _ _ _ _ _ _ RB) as (r' & A & B). cbn [a_do rg_do does fst snd] in *.
        unfold rg_add_name. bind_in A z. destruct z as [z rz]. injection A as <- <-. exact B.
      - destruct (run_two _ _ _ _ _ _ RB) as (r' & A & B). cbn [a_do rg_do does fst snd] in *.
        unfold rg_pusher_name. bind_in A z. destruct z as [z rz]. injection A as <- <-. cbn [bind]. bind_in B w. injection B as <- <-. reflexivity.
      - destruct (NP f clk eq_refl).
      - rewrite (EN v eq_refl ss eq_refl) in RB. cbn [does rg_do].
        destruct (enable_loop ne v (rg_arr r0) [] (set_flag v r0) eq_refl) as (outs & EQ); [exact (objects_nodup r0 OK0)|].
        assert (EF : map fst (effects (ELin t (AFlag v) RUnit :: map (fun s => ELin t (AEnableOne s v) RUnit) (objects (rg_arr r0)))) = AFlag v :: map (fun s => AEnableOne s v) (objects (rg_arr r0))).
        { simpl. f_equal. clear. induction (objects (rg_arr r0)); simpl; congruence. }
        rewrite EF in RB. cbn [a_run a_do bind] in RB. rewrite EQ in RB. cbn [bind] in RB. injection RB as _ <-. reflexivity.
      - destruct TK as [-> | -> ]; destruct (NO _ (or_introl eq_refl)).
      - destruct PU as [[-> | -> ]|[-> | -> ]]; try (destruct (NO _ (or_introl eq_refl)); fail). exists []. split; [exact (run_one _ _ _ _ RB)|]. unfold w_deliver. destruct (rg_get_name id r1); reflexivity.
      - destruct PU as [[-> | -> ]|[-> | -> ]]; try (destruct (NO _ (or_introl eq_refl)); fail). destruct (run_two _ _ _ _ _ _ RB) as (r' & A & B). cbn [a_do rg_do fst snd] in B. injection B as <- <-.
        exists recs. split; [exact A|]. unfold w_deliver. destruct (rg_get_name id r'); reflexivity. }
    destruct k as [[]|]; try (exists r0, r1; split; [exact R0|]; split; [exact R1|]; apply GOAL; intros; discriminate).
    destruct (pop_alone sched evs c E _ _ _ _ _ _ _ EQ Q ON) as (r2 & r3 & A & B & D). exists r2, r3. auto.
  Qed.
End Alone.
