(** The simulation for separators, aggregators and several aggregators with one pool. *)
From Coq Require Import ZArith List Bool Arith Lia Permutation.
From Verif Require Import Base SortFacts ListFacts ModelTypes ModelAvg ModelReducer SpecReducer ReducerProofs ModelSeparator SpecSeparator ModelAggregator SpecAggregator
  ModelBuffers SpecBuffers BufferProofs.
Import ListNotations.
Local Open Scope Z_scope.

Section Run.
  Variable bd : nat.
  Variable ne : nat -> list Z -> list Z.
  Hypothesis ne_len : forall k l, length (ne k l) = length l.
  Notation recs_ok := (Forall (prec_ok bd)).

  Lemma set_ts_ok t x : prec_ok bd x -> prec_ok bd (pc_map (ad_set_ts t) x).
  Proof. intros H. exact H. Qed.
  Lemma loop_sim F step ts : forall fuel next m p r, good bd (pr_rows p ++ F) m -> red_is bd true m p r ->
    sim (fun '(recs, p', n, m') '(recs', r', n') => map pc_rec recs = recs' /\ recs_ok recs /\ n = n' /\ good bd (pr_rows p' ++ F) m' /\ frame F m m' /\ red_is bd true m' p' r')
      (t_loop ne fuel step ts next p m) (sep_loop ne fuel step ts next r).
  Proof.
    induction fuel as [|fuel IH]; intros next m p r G R; cbn [t_loop sep_loop];
      (destruct (next <=? ts); [|cbn; split; [reflexivity|]; split; [constructor|]; split; [reflexivity|]; split; [exact G|]; split; [apply frame_refl|exact R]]); [exact Logic.I|].
    eapply sim_bind; [exact (detach_sim bd ne ne_len F m p r true G R)|]. intros [[a p1] m1] [a' r1] (A & G1 & F1 & R1).
    eapply sim_bind with (Q := fun l l' => map pc_rec l = l' /\ recs_ok l).
    { destruct a as [x|], a' as [y|]; cbn in A; try contradiction; cbn; [|auto]. destruct A as [<- PX]. destruct (chk (next - step)); cbn; auto. }
    intros rec rec' [ER OR]. eapply sim_bind; [apply sim_eq|]. intros n1 n1' <-. eapply sim_bind; [exact (IH n1 m1 p1 r1 G1 R1)|].
    intros [[[recs p2] n2] m2] [[recs' r2] n2'] (E2 & O2 & N2 & G2 & F2 & R2). cbn [sim]. rewrite map_app, ER, E2. split; [reflexivity|]. split; [apply Forall_app; auto|].
    split; [exact N2|]. split; [exact G2|]. split; [eapply frame_trans; eauto|exact R2].
  Qed.

  Definition sep_is (m : mem) (s : psep) (s' : sep) : Prop :=
    exists r, red_is bd true m (t_red s) r /\ s' = mk_sep r (t_step s) (t_next s) (t_res s) (map pc_rec (t_list s)) /\ recs_ok (t_list s).
  Definition srows (s : psep) : list nat := pr_rows (t_red s).
  Definition after_sep F m (x : bool * list prec * psep * mem) (y : bool * list adata * sep) : Prop :=
    let '(b, recs, s, m') := x in let '(b', recs', s') := y in
    b = b' /\ map pc_rec recs = recs' /\ recs_ok recs /\ good bd (srows s ++ F) m' /\ frame F m m' /\ sep_is m' s s'.
  Lemma separate_sim F m s s' clock ts h force : good bd (srows s ++ F) m -> sep_is m s s' ->
    sim (after_sep F m) (t_separate ne clock ts h force s m) (s_separate ne clock ts h force s').
  Proof.
    intros G (r & R & -> & LO). unfold t_separate, s_separate. cbn [s_step s_res s_next s_red s_list]. eapply sim_bind; [apply sim_eq|]. intros t t' <-.
    destruct (negb force && (t <? t_next s)).
    { cbn. split; [reflexivity|]. split; [reflexivity|]. split; [constructor|]. split; [exact G|]. split; [apply frame_refl|]. exists r. auto. }
    eapply sim_bind; [exact (loop_sim F _ _ _ _ m _ r G R)|]. intros [[[recs p2] n2] m2] [[recs' r2] n2'] (E2 & O2 & N2 & G2 & F2 & R2). subst n2'. cbn [sim after_sep srows t_red].
    split; [reflexivity|]. split; [destruct h; [exact E2|reflexivity]|]. split; [destruct h; [exact O2|constructor]|]. split; [exact G2|]. split; [exact F2|].
    exists r2. cbn [t_red t_step t_next t_res t_list]. split; [exact R2|]. rewrite map_app. destruct h; cbn; rewrite ?E2; split; auto; apply Forall_app; auto.
  Qed.
  Lemma put_sim F m s s' c1 c2 h x : good bd (srows s ++ F) m -> sep_is m s s' ->
    sim (after_sep F m) (t_put ne c1 c2 h x s m) (s_put ne c1 c2 (sm_ts x) h (r_op x) s').
  Proof.
    intros G S. unfold t_put, s_put. assert (ES : t_step s = s_step s' /\ t_res s = s_res s') by (destruct S as (r & _ & -> & _); auto). destruct ES as [<- <-].
    eapply sim_bind; [apply sim_eq|]. intros t t' <-. eapply sim_bind; [exact (separate_sim F m s s' c2 t h false G S)|].
    intros [[[b recs] s1] m1] [[b' recs'] s1'] (_ & ER & OR & G1 & F1 & (r1 & R1 & -> & L1)). cbn [s_next s_step s_res s_red s_list]. eapply sim_bind; [apply sim_eq|]. intros cur cur' <-.
    destruct (t <? cur).
    { cbn. split; [reflexivity|]. split; [exact ER|]. split; [exact OR|]. split; [exact G1|]. split; [exact F1|]. exists r1. auto. }
    destruct (op_sim bd F m1 (t_red s1) r1 x G1 R1) as (p' & m2 & -> & G2 & F2 & R2). cbn [bind sim after_sep srows t_red].
    split; [reflexivity|]. split; [exact ER|]. split; [exact OR|]. split; [exact G2|]. split; [eapply frame_trans; eauto|]. eexists. cbn [t_red t_step t_next t_res t_list]. split; [exact R2|]. auto.
  Qed.

  (** Aggregators *)
  Lemma ne_nth_len perc off d v off' d' : g_nth_ ne perc off d = Ok (v, off', d') -> length d' = length d.
  Proof.
    unfold g_nth_. destruct (_ <? off)%nat; [destruct (nth_error d off); [|discriminate]; intros H; injection H as _ _ <-; reflexivity|].
    destruct (nth_error _ _); [|discriminate]. intros H. injection H as _ _ <-. rewrite app_length, ne_len, firstn_length, skipn_length. lia.
  Qed.
  Lemma agg2_len a d : g_aggregate2_ ne a = Ok d -> length (ad_data d) = length (ad_data a).
  Proof.
    unfold g_aggregate2_. destruct (length (ad_data a)) as [|n] eqn:L; [intros H; injection H as <-; exact L|].
    destruct (g_nth_ ne 50 0 (ad_data a)) as [[[v1 o1] d1]| |] eqn:E1; cbn [bind]; try discriminate.
    destruct (g_nth_ ne 80 o1 d1) as [[[v2 o2] d2]| |] eqn:E2; cbn [bind]; try discriminate.
    destruct (g_nth_ ne 95 o2 d2) as [[[v3 o3] d3]| |] eqn:E3; cbn [bind]; try discriminate.
    destruct (g_nth_ ne 99 o3 d3) as [[[v4 o4] d4]| |] eqn:E4; cbn [bind]; try discriminate.
    destruct (nth_error d4 (S n - 1)); [|discriminate]. intros H. injection H as <-. cbn [ad_data].
    apply ne_nth_len in E1, E2, E3, E4. congruence.
  Qed.
  Lemma keep_len k : forall d i, (length (keep_from k i d) <= length d)%nat.
  Proof. induction d as [|x d IH]; intros i; cbn; [lia|]. destruct (k i); cbn; specialize (IH (S i)); lia. Qed.
  Lemma reduce__len out d : (length (g_reduce_ out d) <= length d)%nat.
  Proof.
    unfold g_reduce_. destruct (_ || _)%bool; [lia|]. destruct (length d <? out * 2)%nat; (destruct (_ && _)%bool; [apply keep_len|lia]).
  Qed.
  Lemma finish_sim out x : prec_ok bd x -> sim (fun y d => pc_rec y = d /\ prec_ok bd y) (a_finish ne out x) (g_finish ne out (pc_rec x)).
  Proof.
    intros P. unfold a_finish. destruct (g_finish ne out (pc_rec x)) as [d| |] eqn:E; cbn [bind sim]; auto. split; [reflexivity|].
    unfold g_finish in E. destruct (g_aggregate2_ ne (pc_rec x)) as [d1| |] eqn:E1; cbn [bind] in E; try discriminate. injection E as <-. apply agg2_len in E1.
    unfold prec_ok in *. cbn [pc_rec pc_cap ad_data]. pose proof (reduce__len out (ad_data d1)). lia.
  Qed.
  Lemma finish_all_sim out l : recs_ok l -> sim (fun ys ds => map pc_rec ys = ds /\ recs_ok ys) (a_finish_all ne out l) (g_finish_all ne out (map pc_rec l)).
  Proof.
    induction 1 as [|x l P O IH]; cbn [a_finish_all g_finish_all map]; [cbn; auto|]. eapply sim_bind; [exact (finish_sim out x P)|]. intros y d [EY PY].
    eapply sim_bind; [exact IH|]. intros ys ds [EYS PYS]. cbn. split; [congruence|constructor; auto].
  Qed.
  Definition agg_is (m : mem) (g : pagg) (g' : agg) : Prop :=
    exists s', sep_is m (a_sep g) s' /\ g' = mk_agg s' (a_out g) (a_enabled g) (map pc_rec (a_list g)) (a_id g) /\ recs_ok (a_list g).
  Definition arows (g : pagg) : list nat := srows (a_sep g).
  Lemma agg0_sim m g g' : agg_is m g g' -> sim (fun g1 g1' => agg_is m g1 g1' /\ arows g1 = arows g) (a_aggregate0_ ne g) (g_aggregate0_ ne g').
  Proof.
    intros (s' & (r & R & -> & LO) & -> & AO). unfold a_aggregate0_, g_aggregate0_. cbn [g_sep g_out s_list g_enabled g_list g_id s_red s_step s_next s_res].
    eapply sim_bind; [exact (finish_all_sim (a_out g) _ LO)|]. intros ys ds [<- PY]. cbn [sim]. split; [|reflexivity].
    eexists. split; [exists r; cbn; split; [exact R|]; split; [reflexivity|constructor]|]. cbn. rewrite map_app. split; [reflexivity|]. apply Forall_app. auto.
  Qed.
  Lemma agg_set_sep m g g' s s' : agg_is m g g' -> forall m', sep_is m' s s' -> agg_is m' (a_set_sep s g) (g_set_sep s' g').
  Proof. intros (s0 & _ & -> & AO) m' S. exists s'. cbn. split; [exact S|]. auto. Qed.
  Definition outs_ok (o : pout) : Prop := recs_ok (po_handler o) /\ match po_popped o with Some x => prec_ok bd x | None => True end.
  Definition after_agg F m (x : pout * pagg * mem) (y : sout * agg) : Prop :=
    let '(o, g, m') := x in let '(o', g') := y in values_of o = o' /\ outs_ok o /\ good bd (arows g ++ F) m' /\ frame F m m' /\ agg_is m' g g'.
  (** What g_add, g_add_arr, g_add_red have in common. *)
  Definition g_add_x (x : sample) (c1 c2 : Z) (g : agg) : outcome (bool * agg) := g_add_with ne (s_put ne c1 c2 (sm_ts x) false (r_op x)) g.
  Lemma add_sim F m g g' x c1 c2 : good bd (arows g ++ F) m -> agg_is m g g' ->
    sim (fun '(b, g1, m') '(b', g1') => b = b' /\ good bd (arows g1 ++ F) m' /\ frame F m m' /\ agg_is m' g1 g1') (a_add ne x c1 c2 g m) (g_add_x x c1 c2 g').
  Proof.
    intros G A. unfold a_add, g_add_x, g_add_with. assert (EE : g_enabled g' = a_enabled g) by (destruct A as (s' & _ & -> & _); reflexivity). rewrite EE.
    destruct (negb (a_enabled g)); [cbn; split; [reflexivity|]; split; [exact G|]; split; [apply frame_refl|exact A]|].
    pose proof A as A0. destruct A0 as (s' & S & EG & AO). assert (ES : g_sep g' = s') by (subst; reflexivity). rewrite ES.
    eapply sim_bind; [exact (put_sim F m (a_sep g) s' c1 c2 false x G S)|]. intros [[[b recs] s1] m1] [[b' recs'] s1'] (<- & ER & OR & G1 & F1 & S1).
    destruct b; cbn [negb]; [|cbn; split; [reflexivity|]; split; [exact G1|]; split; [exact F1|]; eapply agg_set_sep; eauto].
    eapply sim_bind; [exact (agg0_sim m1 _ _ (agg_set_sep _ _ _ _ _ A _ S1))|]. intros g1 g1' [A1 E1]. cbn. split; [reflexivity|]. rewrite E1. split; [exact G1|]. split; [exact F1|exact A1].
  Qed.
  Lemma push_sim F m g g' x h c1 c2 : good bd (arows g ++ F) m -> agg_is m g g' ->
    sim (after_agg F m)
      (if negb (a_enabled g) then Ok (mk_pout (Some true) [] None, g, m)
       else if negb h then '(b, g1, m1) <- a_add ne x c1 c2 g m ;; Ok (mk_pout (Some b) [] None, g1, m1)
       else '(b, recs, s, m1) <- t_put ne c1 c2 true x (a_sep g) m ;; ds <- a_finish_all ne (a_out g) recs ;; Ok (mk_pout (Some b) ds None, a_set_sep s g, m1))
      ('(b, recs, g1) <- g_push_with ne (s_put ne c1 c2 (sm_ts x) false (r_op x)) (s_put ne c1 c2 (sm_ts x) true (r_op x)) h g' ;; Ok (mk_sout (Some b) recs None, g1)).
  Proof.
    intros G A. unfold g_push_with. pose proof A as A0. destruct A0 as (s' & S & EG & AO). assert (EE : g_enabled g' = a_enabled g) by (subst; reflexivity). rewrite EE.
    destruct (negb (a_enabled g)); [cbn; split; [reflexivity|]; split; [split; [constructor|exact Logic.I]|]; split; [exact G|]; split; [apply frame_refl|exact A]|]. destruct (negb h).
    - change (g_add_with ne (s_put ne c1 c2 (sm_ts x) false (r_op x)) g') with (g_add_x x c1 c2 g'). pose proof (add_sim F m g g' x c1 c2 G A) as X.
      destruct (a_add ne x c1 c2 g m) as [[[b g1] m1]| |], (g_add_x x c1 c2 g') as [[b' g1']| |]; cbn in *; try contradiction; auto. destruct X as (<- & G1 & F1 & A1).
      split; [reflexivity|]. split; [split; [constructor|exact Logic.I]|]. auto.
    - assert (ES : g_sep g' = s') by (subst; reflexivity). assert (EO : g_out g' = a_out g) by (subst; reflexivity). rewrite ES, EO.
      pose proof (put_sim F m (a_sep g) s' c1 c2 true x G S) as X.
      destruct (t_put ne c1 c2 true x (a_sep g) m) as [[[[b recs] s1] m1]| |], (s_put ne c1 c2 (sm_ts x) true (r_op x) s') as [[[b' recs'] s1']| |]; cbn [sim bind] in *; try contradiction; auto.
      destruct X as (<- & <- & OR & G1 & F1 & S1). pose proof (finish_all_sim (a_out g) recs OR) as Y.
      destruct (a_finish_all ne (a_out g) recs) as [ds| |], (g_finish_all ne (a_out g) (map pc_rec recs)) as [ds'| |]; cbn [sim bind] in *; try contradiction; auto.
      destruct Y as [<- OY]. split; [reflexivity|]. split; [split; [exact OY|exact Logic.I]|]. split; [exact G1|]. split; [exact F1|]. eapply agg_set_sep; eauto.
  Qed.
  Lemma call_sim F m op g g' : good bd (arows g ++ F) m -> agg_is m g g' -> sim (after_agg F m) (a_call ne op g m) (g_call ne op g').
  Proof.
    intros G A. destruct op as [x c1 c2|x h c1 c2|ts h f c| | | |v|ts c]; cbn [a_call g_call].
    - assert (X : sim (after_agg F m) ('(b, g1, m1) <- a_add ne x c1 c2 g m ;; Ok (mk_pout (Some b) [] None, g1, m1)) ('(b, g1) <- g_add_x x c1 c2 g' ;; Ok (mk_sout (Some b) [] None, g1))).
      { eapply sim_bind; [exact (add_sim F m g g' x c1 c2 G A)|]. intros [[b g1] m1] [b' g1'] (<- & G1 & F1 & A1). cbn. split; [reflexivity|]. split; [split; [constructor|exact Logic.I]|]. auto. }
      destruct x; cbn [bind]; [exact X|exact X|exact Logic.I|exact X].
    - pose proof (push_sim F m g g' x h c1 c2 G A) as X. destruct x; cbn [bind]; [exact X|exact X|exact Logic.I|exact X].
    - pose proof A as A0. destruct A0 as (s' & S & EG & AO). assert (ES : g_sep g' = s') by (subst; reflexivity).
      unfold g_separate. rewrite ES. pose proof (separate_sim F m (a_sep g) s' c ts h f G S) as X.
      destruct (t_separate ne c ts h f (a_sep g) m) as [[[[b recs] s1] m1]| |], (s_separate ne c ts h f s') as [[[b' recs'] s1']| |]; cbn [sim bind] in *; try contradiction; auto.
      destruct X as (<- & <- & OR & G1 & F1 & S1). pose proof (agg0_sim m1 _ _ (agg_set_sep _ _ _ _ _ A _ S1)) as Y.
      destruct (a_aggregate0_ ne (a_set_sep s1 g)) as [g1| |], (g_aggregate0_ ne (g_set_sep s1' g')) as [g1'| |]; cbn [sim bind] in *; try contradiction; auto.
      destruct Y as [A1 E1]. split; [reflexivity|]. split; [split; [exact OR|exact Logic.I]|]. rewrite E1. auto.
    - destruct A as (s' & S & -> & AO). unfold g_pop. cbn [g_list]. destruct (a_list g) as [|a l] eqn:EL; cbn [map sim].
      + split; [reflexivity|]. split; [split; [constructor|exact Logic.I]|]. split; [exact G|]. split; [apply frame_refl|]. exists s'. rewrite EL. cbn. auto.
      + inversion AO; subst. split; [reflexivity|]. split; [split; [constructor|assumption]|]. split; [exact G|]. split; [apply frame_refl|]. exists s'. cbn. auto.
    - pose proof A as A0. destruct A0 as (s' & S & EG & AO). unfold g_force_pop. assert (ES : g_sep g' = s') by (subst; reflexivity). assert (EO : g_out g' = a_out g) by (subst; reflexivity). rewrite ES, EO.
      assert (X : sim (fun '(a, s1, m1) '(a', s1') => opt_is bd a a' /\ good bd (srows s1 ++ F) m1 /\ frame F m m1 /\ sep_is m1 s1 s1') (t_force_pop ne (a_sep g) m) (s_force_pop ne s')).
      { destruct S as (r & R & -> & LO). unfold t_force_pop, s_force_pop, s_pop. cbn [s_list s_red s_step s_next s_res]. destruct (t_list (a_sep g)) as [|a l] eqn:EL; cbn [map].
        - eapply sim_bind; [exact (detach_sim bd ne ne_len F m _ r true G R)|]. intros [[a p1] m1] [a' r1] (OA & G1 & F1 & R1).
          destruct a as [x|], a' as [y|]; cbn in OA; try contradiction.
          + destruct OA as [<- PX]. destruct (chk (t_next (a_sep g) - t_step (a_sep g))); cbn [bind sim]; auto. split; [split; [reflexivity|exact PX]|]. split; [exact G1|]. split; [exact F1|]. exists r1. cbn. auto.
          + cbn [sim]. split; [exact Logic.I|]. split; [exact G1|]. split; [exact F1|]. exists r1. cbn. auto.
        - inversion LO; subst. cbn [sim]. split; [split; [reflexivity|assumption]|]. split; [exact G|]. split; [apply frame_refl|]. exists r. cbn. auto. }
      destruct (t_force_pop ne (a_sep g) m) as [[[a s1] m1]| |], (s_force_pop ne s') as [[a' s1']| |]; cbn [sim bind] in *; try contradiction; auto.
      destruct X as (OA & G1 & F1 & S1). destruct a as [x|], a' as [y|]; cbn in OA; try contradiction.
      + destruct OA as [<- PX]. pose proof (finish_sim (a_out g) x PX) as Y.
        destruct (a_finish ne (a_out g) x) as [d| |], (g_finish ne (a_out g) (pc_rec x)) as [d'| |]; cbn [sim bind] in *; try contradiction; auto. destruct Y as [<- PD].
        split; [reflexivity|]. split; [split; [constructor|exact PD]|]. split; [exact G1|]. split; [exact F1|]. eapply agg_set_sep; eauto.
      + cbn [sim bind]. split; [reflexivity|]. split; [split; [constructor|exact Logic.I]|]. split; [exact G1|]. split; [exact F1|]. eapply agg_set_sep; eauto.
    - pose proof A as A0. destruct A0 as (s' & S & EG & AO). unfold g_current. assert (ES : g_sep g' = s') by (subst; reflexivity). assert (EO : g_out g' = a_out g) by (subst; reflexivity). rewrite ES, EO.
      assert (KEEP : forall m1, frame (arows g ++ F) m m1 -> agg_is m1 g g').
      { intros m1 F1. exists s'. split; [|auto]. destruct S as (r & R & -> & LO). exists r. split; [|auto]. eapply red_frame; [exact R|exact F1|]. intros b I. apply in_app_iff. auto. }
      assert (X : sim (fun '(a, m1) a' => opt_is bd a a' /\ good bd (arows g ++ F) m1 /\ frame (arows g ++ F) m m1) (t_get_current ne (a_sep g) m) (s_get_current ne s')).
      { destruct S as (r & R & -> & LO). unfold t_get_current, s_get_current. cbn [s_red s_next s_step]. eapply sim_bind; [exact (get_reduced_sim bd ne ne_len F m _ r G R)|].
        intros [a m1] a' (OA & G1 & F1). destruct a as [x|], a' as [y|]; cbn in OA; try contradiction.
        - destruct OA as [<- PX]. destruct (chk (t_next (a_sep g) - t_step (a_sep g))); cbn [bind sim]; auto. split; [split; [reflexivity|exact PX]|]. auto.
        - cbn. auto. }
      destruct (t_get_current ne (a_sep g) m) as [[a m1]| |], (s_get_current ne s') as [a'| |]; cbn [sim bind] in *; try contradiction; auto.
      destruct X as (OA & G1 & F1). assert (F2 : frame F m m1) by (eapply frame_incl; [exact F1|]; intros; apply in_app_iff; auto).
      destruct a as [x|], a' as [y|]; cbn in OA; try contradiction.
      + destruct OA as [<- PX]. pose proof (finish_sim (a_out g) x PX) as Y.
        destruct (a_finish ne (a_out g) x) as [d| |], (g_finish ne (a_out g) (pc_rec x)) as [d'| |]; cbn [sim bind] in *; try contradiction; auto. destruct Y as [<- PD].
        split; [reflexivity|]. split; [split; [constructor|exact PD]|]. auto.
      + cbn [sim bind]. split; [reflexivity|]. split; [split; [constructor|exact Logic.I]|]. auto.
    - destruct A as (s' & S & -> & AO). cbn. split; [reflexivity|]. split; [split; [constructor|exact Logic.I]|]. split; [exact G|]. split; [apply frame_refl|]. exists s'. cbn. auto.
    - pose proof A as A0. destruct A0 as (s' & S & EG & AO). unfold g_clear. assert (ES : g_sep g' = s') by (subst; reflexivity). rewrite ES.
      destruct S as (r & R & -> & LO). unfold t_clear, s_clear. cbn [s_step s_res s_red]. destruct (get_ts (t_step (a_sep g)) (t_res (a_sep g)) c ts) as [t| |]; cbn [bind sim]; auto.
      destruct (chk (t + t_step (a_sep g))) as [n| |]; cbn [bind sim]; auto. destruct (clear_sim bd F m _ r true G R) as (p1 & m1 & -> & E1 & G1 & F1 & R1). cbn [bind sim after_agg].
      split; [reflexivity|]. split; [split; [constructor|exact Logic.I]|]. unfold arows, srows. cbn [a_sep t_red]. rewrite E1. split; [exact G1|]. split; [exact F1|].
      rewrite EG. cbn [g_out g_enabled g_id]. eexists. cbn [a_sep a_out a_enabled a_list a_id]. split; [|split; [reflexivity|constructor]]. exists (r_clear r). cbn [t_red t_step t_next t_res t_list]. split; [exact R1|]. split; [reflexivity|constructor].
  Qed.

  (** Several aggregators *)
  Definition slot_is (m : mem) (x : option pagg) (y : option agg) : Prop :=
    match x, y with Some g, Some g' => agg_is m g g' | None, None => True | _, _ => False end.
  Variables item max : nat.
  Definition store_is (s : store) (gs : list (option agg)) : Prop :=
    (good bd (in_use s) (b_mem s) /\ Forall2 (slot_is (b_mem s)) (b_aggs s) gs) /\ m_item (b_mem s) = item /\ m_max (b_mem s) = max.
  Lemma slot_frame O m m' x y : slot_is m x y -> frame O m m' -> (forall b, In b (rows_of x) -> In b O) -> slot_is m' x y.
  Proof.
    intros S F I. destruct x as [g|], y as [g'|]; cbn in *; auto. destruct S as (s' & (r & R & -> & LO) & -> & AO). eexists. split; [|split; [reflexivity|exact AO]].
    exists r. split; [|auto]. eapply red_frame; [exact R|exact F|exact I].
  Qed.
  Lemma slots_frame O m m' xs ys : Forall2 (slot_is m) xs ys -> frame O m m' -> (forall b, In b (flat_map rows_of xs) -> In b O) -> Forall2 (slot_is m') xs ys.
  Proof.
    intros R F. induction R as [|x y xs ys S R IH]; intros I; constructor.
    - eapply slot_frame; [exact S|exact F|]. intros b H. apply I. cbn. apply in_app_iff. auto.
    - apply IH. intros b H. apply I. cbn. apply in_app_iff. auto.
  Qed.
  Lemma Forall2_at {A B} (R : A -> B -> Prop) : forall l l' i x, Forall2 R l l' -> nth_error l i = Some x ->
    exists l1 l2 k1 k2 y, l = l1 ++ x :: l2 /\ l' = k1 ++ y :: k2 /\ length l1 = i /\ length k1 = i /\ Forall2 R l1 k1 /\ R x y /\ Forall2 R l2 k2.
  Proof.
    intros l l' i x F. revert i x. induction F as [|a b l l' H F IH]; intros [|i] x E; cbn in E; try discriminate.
    - injection E as <-. exists [], l, [], l', b. repeat split; auto.
    - destruct (IH i x E) as (l1 & l2 & k1 & k2 & y & -> & -> & L1 & L2 & F1 & RX & F2). exists (a :: l1), l2, (b :: k1), k2, y. cbn. repeat split; auto.
  Qed.
  Lemma Forall2_none {A B} (R : A -> B -> Prop) : forall l l' i, Forall2 R l l' -> nth_error l i = None -> nth_error l' i = None.
  Proof. intros l l' i F. revert i. induction F; intros [|i] E; cbn in *; auto; discriminate. Qed.
  Lemma nth_mid {A} (l : list A) x r : nth_error (l ++ x :: r) (length l) = Some x.
  Proof. rewrite nth_error_app2, Nat.sub_diag by lia. reflexivity. Qed.
  Definition after_store (x : option pout * store) (y : option sout * list (option agg)) : Prop :=
    option_map values_of (fst x) = fst y /\ match fst x with Some o => outs_ok o | None => True end /\ store_is (snd x) (snd y).
  Definition fits_bound (op : bop) : Prop := match op with BNew o _ _ _ => (o_limit (so_red (ao_sep o)) <= bd)%nat | _ => True end.
  Lemma step_sim s gs op : store_is s gs -> fits_bound op -> sim after_store (b_step ne op s) (ref_step ne op gs).
  Proof.
    intros [[G R] IM] FB. destruct op as [o clock rnd ts|i op|i]; cbn [b_step ref_step].
    - unfold a_new, agg_new, t_new. destruct (sep_new (ao_sep o) clock rnd ts) as [s0| |] eqn:E; cbn [bind sim]; auto.
      split; [reflexivity|]. split; [exact Logic.I|]. split; [|exact IM]. split.
      + unfold in_use in *. cbn [b_aggs b_mem snd]. rewrite flat_map_app. cbn. rewrite app_nil_r. exact G.
      + cbn [b_aggs b_mem snd]. apply Forall2_app; [exact R|]. constructor; [|constructor]. cbn. eexists. split; [|split; [reflexivity|constructor]]. cbn.
        unfold sep_new in E. destruct (get_ts (so_step (ao_sep o)) (so_res (ao_sep o)) clock ts) as [t| |]; cbn [bind] in E; try discriminate.
        assert (EX : exists nx, s0 = mk_sep (reducer_new (so_red (ao_sep o))) (so_step (ao_sep o)) nx (so_res (ao_sep o)) []).
        { destruct (negb (so_soiled (ao_sep o) =? 0)); [destruct (chk _) as [t'| |]; cbn [bind] in E; try discriminate|cbn [bind] in E]; (destruct (chk _) as [nx| |]; cbn [bind] in E; try discriminate); injection E as <-; eauto. }
        destruct EX as [nx ->]. exists (reducer_new (so_red (ao_sep o))). cbn. split; [|auto]. exists []. split; [constructor|]. split; [reflexivity|]. unfold lim. cbn. rewrite ctor_opt_limit. split; [exact FB|lia].
    - destruct (nth_error (b_aggs s) i) as [x|] eqn:N.
      + destruct (Forall2_at _ _ _ _ _ R N) as (l1 & l2 & k1 & k2 & y & E1 & E2 & L1 & L2 & F1 & RX & F2). subst i. rewrite E2. rewrite <- L2 at 1. rewrite nth_mid.
        destruct x as [g|], y as [g'|]; cbn in RX; try contradiction; [|cbn; split; [reflexivity|]; split; [exact Logic.I|]; split; [split; [exact G|cbn [snd]; rewrite <- E2; exact R]|exact IM]].
        assert (G0 : good bd (arows g ++ flat_map rows_of l1 ++ flat_map rows_of l2) (b_mem s)).
        { eapply good_perm; [exact G|]. unfold in_use. rewrite E1, flat_map_app. cbn. rewrite !app_assoc. apply Permutation_app_tail, Permutation_app_comm. }
        eapply sim_bind; [exact (call_sim _ _ op g g' G0 RX)|]. intros [[o g1] m1] [o' g1'] (VO & OO & G1 & FR & A1). cbn. split; [cbn; congruence|]. split; [exact OO|]. split; [|cbn; destruct FR as (X & Y & _); destruct IM; split; congruence]. split.
        * unfold in_use. cbn [b_aggs b_mem snd fst]. rewrite E1, set_nth_app, flat_map_app. cbn. eapply good_perm; [exact G1|]. rewrite !app_assoc. apply Permutation_app_tail, Permutation_app_comm.
        * cbn [b_aggs b_mem snd fst]. rewrite E1, set_nth_app. rewrite <- L2, set_nth_app. apply Forall2_app; [eapply slots_frame; [exact F1|exact FR|]; intros; apply in_app_iff; auto|].
          constructor; [exact A1|]. eapply slots_frame; [exact F2|exact FR|]; intros; apply in_app_iff; auto.
      + rewrite (Forall2_none _ _ _ _ R N). cbn. split; [reflexivity|]. split; [exact Logic.I|]. split; [split; assumption|exact IM].
    - destruct (nth_error (b_aggs s) i) as [x|] eqn:N.
      + destruct (Forall2_at _ _ _ _ _ R N) as (l1 & l2 & k1 & k2 & y & E1 & E2 & L1 & L2 & F1 & RX & F2). subst i. rewrite E2. rewrite <- L2 at 1. rewrite nth_mid.
        destruct x as [g|], y as [g'|]; cbn in RX; try contradiction; [|cbn; split; [reflexivity|]; split; [exact Logic.I|]; split; [split; [exact G|cbn [snd]; rewrite <- E2; exact R]|exact IM]].
        assert (G0 : good bd (arows g ++ flat_map rows_of l1 ++ flat_map rows_of l2) (b_mem s)).
        { eapply good_perm; [exact G|]. unfold in_use. rewrite E1, flat_map_app. cbn. rewrite !app_assoc. apply Permutation_app_tail, Permutation_app_comm. }
        destruct RX as (s' & (r & RR & -> & LO) & -> & AO). destruct (clear_sim bd _ _ _ r true G0 RR) as (p1 & m1 & -> & _ & G1 & FR & _). cbn. split; [reflexivity|]. split; [exact Logic.I|]. split; [|cbn; destruct FR as (X & Y & _); destruct IM; split; congruence]. split.
        * unfold in_use. cbn [b_aggs b_mem snd fst]. rewrite E1, set_nth_app, flat_map_app. exact G1.
        * cbn [b_aggs b_mem snd fst]. rewrite E1, set_nth_app. rewrite <- L2, set_nth_app. apply Forall2_app; [eapply slots_frame; [exact F1|exact FR|]; intros; apply in_app_iff; auto|].
          constructor; [exact Logic.I|]. eapply slots_frame; [exact F2|exact FR|]; intros; apply in_app_iff; auto.
      + rewrite (Forall2_none _ _ _ _ R N). cbn. split; [reflexivity|]. split; [exact Logic.I|]. split; [split; assumption|exact IM].
  Qed.
  Lemma run_sim ops : Forall fits_bound ops -> forall s gs, store_is s gs ->
    sim (fun '(os, s') '(os', gs') => map (option_map values_of) os = os' /\ Forall (fun o => match o with Some o => outs_ok o | None => True end) os /\ store_is s' gs')
      (b_run ne s ops) (ref_run ne gs ops).
  Proof.
    induction 1 as [|op ops FB FO IH]; intros s gs S; cbn [b_run ref_run]; [cbn; auto|].
    eapply sim_bind; [exact (step_sim s gs op S FB)|]. intros [o s1] [o' g1] (EO & OO & S1). cbn [fst snd] in *. eapply sim_bind; [exact (IH s1 g1 S1)|].
    intros [os s2] [os' g2] (ES & OS & S2). cbn. split; [congruence|]. split; [constructor; auto|exact S2].
  Qed.
  Lemma new_is : (2 * item <= bd)%nat -> store_is (b_new item max) [].
  Proof.
    intros L. split; [|auto]. split; [|constructor]. constructor; cbn; auto; try lia.
    - constructor.
    - intros b. unfold live. cbn. split; [|contradiction]. intros [v V]. destruct b; discriminate.
  Qed.
End Run.
