(** More proofs about an aggregator whose handlers call back: the bound on the recursion, what every call keeps, the order of the records,
    and handlers that only receive. *)
From Coq Require Import ZArith List Bool Arith Lia Permutation Sorted.
From Verif Require Import Base SortFacts ModelTypes ModelAvg ModelReducer SpecReducer ModelSeparator SpecSeparator ModelAggregator SpecAggregator
  ReducerProofs PubProofs SepProofs SepSafe SepRun AggProofs AggRun AggFinal ThrowProofs ModelReenter SpecReenter ReenterProofs.
Import ListNotations.
Local Open Scope Z_scope.

Lemma bind_nox {A B} (m : outcome A) (f : A -> outcome B) : m <> Exn -> (forall a, m = Ok a -> f a <> Exn) -> bind m f <> Exn.
Proof. intros H1 H2. destruct m; cbn [bind]; [apply H2; reflexivity|discriminate|congruence]. Qed.
Lemma bind_same {A B} (m m' : outcome A) (f f' : A -> outcome B) : bind m f <> Exn -> (m <> Exn -> m' = m) ->
  (forall a, m = Ok a -> f a <> Exn -> f' a = f a) -> bind m' f' = bind m f.
Proof.
  intros H H1 H2. rewrite H1 by (intros ->; apply H; reflexivity). destruct m; cbn [bind] in *; auto.
Qed.
Lemma chk_nox z : chk z <> Exn.
Proof. unfold chk. destruct (in_i64 z); discriminate. Qed.
Lemma get_ts_nox step res c ts : get_ts step res c ts <> Exn.
Proof.
  unfold get_ts. cbv zeta. destruct (step =? 0); [discriminate|]. apply bind_nox; [apply chk_nox|]. intros. apply chk_nox.
Qed.
Lemma get_ts_step step res c ts t : get_ts step res c ts = Ok t -> step <> 0.
Proof. unfold get_ts. cbv zeta. destruct (Z.eqb_spec step 0); [discriminate|auto]. Qed.

(** Induction on a handler's behaviour. *)
Section BehInd.
  Variable P : beh -> Prop.
  Variable Q : rcall -> Prop.
  Hypothesis H1 : forall cs, Forall Q cs -> P (Beh cs).
  Hypothesis H2 : forall op bs, Forall P bs -> Q (op, bs).
  Fixpoint beh_ind2 (b : beh) : P b :=
    match b with
    | Beh cs => H1 cs ((fix go (cs : list rcall) : Forall Q cs :=
        match cs with
        | [] => Forall_nil _
        | (op, bs) :: cs' =>
            Forall_cons (op, bs) (H2 op bs ((fix gb (bs : list beh) : Forall P bs :=
              match bs with [] => Forall_nil _ | b :: bs' => Forall_cons b (beh_ind2 b) (gb bs') end) bs)) (go cs')
        end) cs)
    end.
  Lemma calls_ind2 cs : Forall Q cs.
  Proof. induction cs as [|[op bs] cs IH]; constructor; auto. apply H2. induction bs; constructor; auto using beh_ind2. Qed.
End BehInd.
Lemma rc_both cs : Forall (rc_all gop_typed) cs -> Forall (rc_all gnot_clear) cs -> Forall (rc_all re_ok) cs.
Proof.
  assert (X : Forall (fun c => rc_all gop_typed c -> rc_all gnot_clear c -> rc_all re_ok c) cs).
  { apply (calls_ind2 (fun b => beh_all gop_typed b -> beh_all gnot_clear b -> beh_all re_ok b)).
    - intros cs0 IH A B. inversion A as [? A1]; inversion B as [? B1]; subst. constructor.
      rewrite Forall_forall in *. intros q Hq. exact (IH q Hq (A1 q Hq) (B1 q Hq)).
    - intros op bs IH [A1 A2] [B1 B2]. split; [split; assumption|]. cbn [snd] in *. rewrite Forall_forall in *. auto. }
  rewrite !Forall_forall in *. auto.
Qed.

Section T.
  Variable ne : nat -> list Z -> list Z.
  Hypothesis Hne : nth_element_ok ne.

  (** * The bound *)
  Lemma re_more n :
    (forall fin ts bs g, re_loop ne n fin ts bs g <> Exn -> re_loop ne (S n) fin ts bs g = re_loop ne n fin ts bs g) /\
    (forall cs g, re_calls ne n cs g <> Exn -> re_calls ne (S n) cs g = re_calls ne n cs g) /\
    (forall c g, re_call ne n c g <> Exn -> re_call ne (S n) c g = re_call ne n c g).
  Proof.
    induction n as [|n (IHl & IHs & IHc)]; [split; [|split]; intros; exfalso; auto|]. split; [|split].
    - intros fin ts bs g H. rewrite (re_loop_S ne (S n)). rewrite (re_loop_S ne n) in *. destruct (_ <=? ts); [|reflexivity].
      cbv zeta in *. apply bind_same; [exact H|reflexivity|]. intros [a r1] _ H1. apply bind_same; [exact H1| |].
      + intros H2. destruct a; [|reflexivity]. apply bind_same; [exact H2|reflexivity|]. intros t _ H3.
        apply bind_same; [exact H3|reflexivity|]. intros d _ H4. apply bind_same; [exact H4|apply IHs|reflexivity].
      + intros [[e b1] g2] _ H2. apply bind_same; [exact H2|reflexivity|]. intros nx _ H3.
        apply bind_same; [exact H3|apply IHl|reflexivity].
    - intros cs g H. rewrite (re_calls_S ne (S n)). rewrite (re_calls_S ne n) in *. destruct cs as [|c cs]; [reflexivity|].
      apply bind_same; [exact H|apply IHc|]. intros [e g1] _ H1. apply bind_same; [exact H1|apply IHs|reflexivity].
    - intros [op bs] g H. rewrite (re_call_S ne (S n)). rewrite (re_call_S ne n) in *. cbv zeta in *.
      destruct op as [x c1 c2|x [|] c1 c2|ts [|] force c| | | |v|ts c]; try reflexivity.
      + destruct (negb (g_enabled g)); [reflexivity|]. apply bind_same; [exact H|reflexivity|]. intros t _ H1.
        apply bind_same; [exact H1|reflexivity|]. intros t2 _ H2. apply bind_same; [exact H2| |reflexivity].
        destruct (t2 <? _); [reflexivity|apply IHl].
      + apply bind_same; [exact H|reflexivity|]. intros t _ H1. apply bind_same; [exact H1| |reflexivity].
        destruct (_ && _); [reflexivity|apply IHl].
  Qed.
  Lemma calls_more n m cs g : re_calls ne n cs g <> Exn -> (n <= m)%nat -> re_calls ne m cs g = re_calls ne n cs g.
  Proof.
    intros H L. induction L as [|m L IH]; [reflexivity|]. rewrite (proj1 (proj2 (re_more m))); [exact IH|]. now rewrite IH.
  Qed.
  Lemma call_more n m c g : re_call ne n c g <> Exn -> (n <= m)%nat -> re_call ne m c g = re_call ne n c g.
  Proof.
    intros H L. induction L as [|m L IH]; [reflexivity|]. rewrite (proj2 (proj2 (re_more m))); [exact IH|]. now rewrite IH.
  Qed.
  Lemma loop_more n m fin ts bs g : re_loop ne n fin ts bs g <> Exn -> (n <= m)%nat -> re_loop ne m fin ts bs g = re_loop ne n fin ts bs g.
  Proof.
    intros H L. induction L as [|m L IH]; [reflexivity|]. rewrite (proj1 (re_more m)); [exact IH|]. now rewrite IH.
  Qed.

  (** * What a call keeps *)
  Definition Good (o : ropts) (step : Z) (res : resolution) (s : sep) : Prop :=
    run_to ne o (s_red s) /\ i64 (s_next s) /\ s_step s = step /\ s_res s = res.
  Definition ahead (step : Z) (s s' : sep) : Prop := 0 < step -> s_next s <= s_next s'.
  Lemma ahead_refl step s : ahead step s s. Proof. intros _. lia. Qed.
  Lemma ahead_trans step a b c : ahead step a b -> ahead step b c -> ahead step a c.
  Proof. unfold ahead. intros A B H. specialize (A H). specialize (B H). lia. Qed.

  Lemma run_to_add o x r : run_to ne o r -> op_typed (sm_op x) -> run_to ne o (addf_of x r).
  Proof.
    intros (ops & HT & E) T. exists (ops ++ [sm_op x]). split; [apply Forall_app; split; auto|].
    rewrite PubProofs.run_app, E. cbn [bind r_run]. destruct x; reflexivity.
  Qed.
  Lemma loop_keep o f : forall step ts next r recs r2 n2, sep_loop ne f step ts next r = Ok (recs, r2, n2) -> run_to ne o r -> i64 next ->
    run_to ne o r2 /\ i64 n2 /\ (0 < step -> next <= n2).
  Proof.
    induction f as [|f IH]; intros step ts next r recs r2 n2 E R I; cbn [sep_loop] in E; destruct (next <=? ts); try discriminate;
      try (injection E as <- <- <-; split; [exact R|split; [exact I|lia]]).
    destruct (r_detach ne r) as [[a r1]| |] eqn:Ed; cbn [bind] in E; try discriminate.
    match type of E with bind ?y _ = _ => destruct y; cbn [bind] in E; try discriminate end.
    destruct (chk (next + step)) as [n1| |] eqn:E1; cbn [bind] in E; try discriminate. apply chk_ok in E1 as [-> I1].
    destruct (sep_loop ne f step ts _ r1) as [[[rc r3] n3]| |] eqn:EL; cbn [bind] in E; try discriminate. injection E as <- <- <-.
    destruct (IH _ _ _ _ _ _ _ EL (run_to_detach ne o r a r1 R Ed) I1) as (A & B & C). split; [exact A|split; [exact B|lia]].
  Qed.
  Lemma separate_keep o step res c ts h force s b recs s' : Good o step res s -> s_separate ne c ts h force s = Ok (b, recs, s') ->
    Good o step res s' /\ ahead step s s'.
  Proof.
    intros (R & I & S & Q) E. unfold s_separate in E. destruct (get_ts _ _ _ _); cbn [bind] in E; try discriminate.
    destruct (_ && _); [injection E as _ _ <-; split; [repeat split; auto; apply I|apply ahead_refl]|].
    destruct (sep_loop _ _ _ _ _ _) as [[[rc r2] n2]| |] eqn:EL; cbn [bind] in E; try discriminate. injection E as _ _ <-.
    destruct (loop_keep o _ _ _ _ _ _ _ _ EL R I) as (A & B & C). rewrite S in C.
    split; [split; [exact A|split; [exact B|split; [exact S|exact Q]]]|exact C].
  Qed.
  Lemma put_keep o step res c1 c2 ts h x s b recs s' : Good o step res s -> op_typed (sm_op x) -> s_put ne c1 c2 ts h (addf_of x) s = Ok (b, recs, s') ->
    Good o step res s' /\ ahead step s s'.
  Proof.
    intros G T E. unfold s_put in E. destruct (get_ts _ _ _ _) as [t| |]; cbn [bind] in E; try discriminate.
    destruct (s_separate _ _ _ _ _ _) as [[[b1 rc] s1]| |] eqn:Es; cbn [bind] in E; try discriminate.
    destruct (separate_keep _ _ _ _ _ _ _ _ _ _ _ G Es) as [(R1 & I1 & S1 & Q1) A]. destruct (chk _); cbn [bind] in E; try discriminate.
    destruct (t <? _); injection E as _ _ <-.
    - split; [split; [exact R1|split; [exact I1|auto]]|exact A].
    - split; [split; [apply run_to_add; assumption|split; [exact I1|auto]]|exact A].
  Qed.
  Lemma sadd_put x c1 c2 s : not_list x -> sadd_of ne x c1 c2 s = s_put ne c1 c2 (sm_ts x) false (addf_of x) s.
  Proof. destruct x; cbn [not_list]; intros H; try contradiction; reflexivity. Qed.
  Lemma aggregate0_keep g g1 : g_aggregate0_ ne g = Ok g1 ->
    s_red (g_sep g1) = s_red (g_sep g) /\ s_next (g_sep g1) = s_next (g_sep g) /\ s_step (g_sep g1) = s_step (g_sep g) /\ s_res (g_sep g1) = s_res (g_sep g) /\ g_out g1 = g_out g.
  Proof. unfold g_aggregate0_. destruct (g_finish_all _ _ _); cbn [bind]; try discriminate. intros E; injection E as <-. auto. Qed.
  Lemma get_keep o step res s : forall s', s_red s' = s_red s -> s_next s' = s_next s -> s_step s' = s_step s -> s_res s' = s_res s -> Good o step res s -> Good o step res s'.
  Proof. unfold Good. intros s' -> -> -> ->. auto. Qed.
  Lemma agg_keep o step res s0 g g1 : g_aggregate0_ ne g = Ok g1 -> Good o step res (g_sep g) /\ ahead step s0 (g_sep g) -> Good o step res (g_sep g1) /\ ahead step s0 (g_sep g1).
  Proof.
    intros E [G A]. destruct (aggregate0_keep _ _ E) as (X1 & X2 & X3 & X4 & _). split; [apply (get_keep o step res (g_sep g)); assumption|].
    unfold ahead in *. now rewrite X2.
  Qed.
  Lemma addw_keep o step res x c1 c2 g b g1 : Good o step res (g_sep g) -> op_typed (sm_op x) -> not_list x -> g_add_with ne (sadd_of ne x c1 c2) g = Ok (b, g1) ->
    Good o step res (g_sep g1) /\ ahead step (g_sep g) (g_sep g1).
  Proof.
    intros G T N E. unfold g_add_with in E. destruct (negb (g_enabled g)); [injection E as _ <-; split; [exact G|apply ahead_refl]|].
    rewrite sadd_put in E by exact N. destruct (s_put _ _ _ _ _ _ _) as [[[b1 rc] s1]| |] eqn:Es; cbn [bind] in E; try discriminate.
    pose proof (put_keep _ _ _ _ _ _ _ _ _ _ _ _ G T Es) as K. destruct (negb b1); [injection E as _ <-; exact K|].
    destruct (g_aggregate0_ ne _) as [g2| |] eqn:EA; cbn [bind] in E; try discriminate. injection E as _ <-. exact (agg_keep _ _ _ _ _ _ EA K).
  Qed.
  Lemma call_keep o step res op g out g1 : Good o step res (g_sep g) -> gop_typed op -> g_call ne op g = Ok (out, g1) ->
    Good o step res (g_sep g1) /\ (gnot_clear op -> ahead step (g_sep g) (g_sep g1)).
  Proof.
    intros G T E. destruct op as [x c1 c2|x h c1 c2|ts h force c| | | |v|ts c].
    - destruct T as [T N]. rewrite call_add in E by exact N. destruct (g_add_with _ _ _) as [[b g2]| |] eqn:EA; cbn [bind] in E; try discriminate.
      injection E as _ <-. destruct (addw_keep _ _ _ _ _ _ _ _ _ G T N EA). auto.
    - destruct T as [T N]. rewrite call_push in E by exact N. destruct (g_push_with _ _ _ _ _) as [[[b rc] g2]| |] eqn:EA; cbn [bind] in E; try discriminate.
      injection E as _ <-. unfold g_push_with in EA. destruct (negb (g_enabled g)); [injection EA as _ _ <-; split; [exact G|intros _; apply ahead_refl]|].
      destruct (negb h).
      + destruct (g_add_with _ _ _) as [[b1 g3]| |] eqn:EB; cbn [bind] in EA; try discriminate. injection EA as _ _ <-.
        destruct (addw_keep _ _ _ _ _ _ _ _ _ G T N EB). auto.
      + rewrite spush_eq in EA by exact N. destruct (s_put _ _ _ _ _ _ _) as [[[b1 rc1] s1]| |] eqn:Es; cbn [bind] in EA; try discriminate.
        destruct (g_finish_all _ _ _); cbn [bind] in EA; try discriminate. injection EA as _ _ <-.
        destruct (put_keep _ _ _ _ _ _ _ _ _ _ _ _ G T Es). auto.
    - cbn [g_call] in E. unfold g_separate in E. destruct (s_separate _ _ _ _ _ _) as [[[b rc] s1]| |] eqn:Es; cbn [bind] in E; try discriminate.
      destruct (g_aggregate0_ ne _) as [g2| |] eqn:EA; cbn [bind] in E; try discriminate. injection E as _ <-.
      pose proof (separate_keep _ _ _ _ _ _ _ _ _ _ _ G Es) as K. destruct (agg_keep _ _ _ (g_sep g) _ _ EA K). auto.
    - cbn [g_call] in E. unfold g_pop in E. destruct (g_list g); injection E as _ <-; (split; [exact G|intros _; apply ahead_refl]).
    - cbn [g_call] in E. unfold g_force_pop in E. destruct (s_force_pop _ _) as [[d s1]| |] eqn:Ef; cbn [bind] in E; try discriminate.
      assert (K : Good o step res s1 /\ ahead step (g_sep g) s1).
      { unfold s_force_pop, s_pop in Ef. destruct (s_list (g_sep g)).
        - destruct (r_detach ne _) as [[a r1]| |] eqn:Ed; cbn [bind] in Ef; try discriminate. destruct G as (R & I & S & Q).
          pose proof (run_to_detach ne o _ a r1 R Ed) as R1.
          destruct a as [x|]; [destruct (chk _); cbn [bind] in Ef; try discriminate|]; injection Ef as _ <-;
            (split; [split; [exact R1|split; [exact I|auto]]|intros _; cbn [s_next]; lia]).
        - injection Ef as _ <-. split; [exact G|intros _; cbn [s_next]; lia]. }
      destruct d as [d|]; cbn [bind] in E; [destruct (g_finish _ _ _); cbn [bind] in E; try discriminate|]; injection E as _ <-; destruct K; auto.
    - cbn [g_call] in E. destruct (g_current ne g); cbn [bind] in E; try discriminate. injection E as _ <-. split; [exact G|intros _; apply ahead_refl].
    - cbn [g_call] in E. injection E as _ <-. split; [exact G|intros _; apply ahead_refl].
    - cbn [g_call] in E. unfold g_clear, s_clear in E. destruct (get_ts _ _ _ _); cbn [bind] in E; try discriminate.
      destruct (chk _) as [n1| |] eqn:E1; cbn [bind] in E; try discriminate. injection E as _ <-. destruct G as (R & I & S & Q).
      apply chk_ok in E1 as [-> I1]. split; [|intros []]. split; [|split; [exact I1|auto]].
      cbn [g_sep s_red]. destruct R as (ops & HT & E). exists (ops ++ [OpClear]). split; [apply Forall_app; split; auto; repeat constructor; unfold is_u64, two64; simpl; lia|].
      rewrite PubProofs.run_app, E. reflexivity.
  Qed.

  (** * No call needs more than a bounded depth *)
  Lemma peek_nox o r : run_to ne o r -> r_get_reduced ne r <> Exn.
  Proof.
    intros (ops & HT & E) D. apply (run_no_exn ne Hne o (ops ++ [OpPeek])).
    - apply Forall_app. split; auto. repeat constructor; unfold is_u64, two64; simpl; lia.
    - rewrite PubProofs.run_app, E. cbn [bind]. simpl. now rewrite D.
  Qed.
  Lemma nth_nox p off d : g_nth_ ne p off d <> Exn.
  Proof. unfold g_nth_. destruct (_ <? off)%nat; destruct (nth_error _ _); discriminate. Qed.
  Lemma finish_nox out a : g_finish ne out a <> Exn.
  Proof.
    unfold g_finish. apply bind_nox; [|discriminate]. unfold g_aggregate2_. destruct (length (ad_data a)); [discriminate|].
    do 4 (apply bind_nox; [apply nth_nox|]; intros [[? ?] ?] _). destruct (nth_error _ _); discriminate.
  Qed.
  Lemma finish_all_nox out l : g_finish_all ne out l <> Exn.
  Proof. induction l; cbn [g_finish_all]; [discriminate|]. apply bind_nox; [apply finish_nox|]. intros d _. apply bind_nox; [assumption|discriminate]. Qed.
  Lemma aggregate0_nox g : g_aggregate0_ ne g <> Exn.
  Proof. unfold g_aggregate0_. apply bind_nox; [apply finish_all_nox|discriminate]. Qed.
  Lemma separate_nox o step res c ts h force s : Good o step res s -> s_separate ne c ts h force s <> Exn.
  Proof.
    intros (R & I & S & Q). unfold s_separate. apply bind_nox; [apply get_ts_nox|]. intros t Et. destruct (_ && _); [discriminate|].
    apply bind_nox; [|intros [[? ?] ?] _; discriminate]. apply (sep_loop_no_exn ne Hne _ _ (get_ts_step _ _ _ _ _ Et) _ _ _ o I R). apply sep_fuel_enough.
  Qed.
  Lemma put_nox o step res c1 c2 ts h f s : Good o step res s -> s_put ne c1 c2 ts h f s <> Exn.
  Proof.
    intros G. unfold s_put. apply bind_nox; [apply get_ts_nox|]. intros t _. apply bind_nox; [apply (separate_nox o step res); exact G|].
    intros [[b rc] s1] _. apply bind_nox; [apply chk_nox|]. intros cur _. destruct (t <? cur); discriminate.
  Qed.
  Lemma addw_nox o step res x c1 c2 g : Good o step res (g_sep g) -> not_list x -> g_add_with ne (sadd_of ne x c1 c2) g <> Exn.
  Proof.
    intros G N. unfold g_add_with. destruct (negb _); [discriminate|]. apply bind_nox; [rewrite sadd_put by exact N; apply (put_nox o step res); exact G|].
    intros [[b rc] s1] _. destruct (negb b); [discriminate|]. apply bind_nox; [apply aggregate0_nox|discriminate].
  Qed.
  Lemma call_nox o step res op g : Good o step res (g_sep g) -> gop_typed op -> g_call ne op g <> Exn.
  Proof.
    intros G T. destruct op as [x c1 c2|x h c1 c2|ts h force c| | | |v|ts c].
    - destruct T as [T N]. rewrite call_add by exact N. apply bind_nox; [apply (addw_nox o step res); assumption|intros [? ?] _; discriminate].
    - destruct T as [T N]. rewrite call_push by exact N. apply bind_nox; [|intros [[? ?] ?] _; discriminate]. unfold g_push_with.
      destruct (negb (g_enabled g)); [discriminate|]. destruct (negb h).
      + apply bind_nox; [apply (addw_nox o step res); assumption|intros [? ?] _; discriminate].
      + apply bind_nox; [rewrite spush_eq by exact N; apply (put_nox o step res); exact G|]. intros [[? ?] ?] _. apply bind_nox; [apply finish_all_nox|discriminate].
    - cbn [g_call]. apply bind_nox; [|intros [[? ?] ?] _; discriminate]. unfold g_separate. apply bind_nox; [apply (separate_nox o step res); exact G|].
      intros [[? ?] ?] _. apply bind_nox; [apply aggregate0_nox|discriminate].
    - cbn [g_call]. destruct (g_pop g). discriminate.
    - cbn [g_call]. apply bind_nox; [|intros [? ?] _; discriminate]. unfold g_force_pop. apply bind_nox.
      + unfold s_force_pop, s_pop. destruct (s_list (g_sep g)); [|discriminate]. apply bind_nox; [apply (reach_detach_exn ne Hne o); apply G|].
        intros [[a|] r1] _; [|discriminate]. apply bind_nox; [apply chk_nox|discriminate].
      + intros [[a|] s1] _; [|discriminate]. apply bind_nox; [apply finish_nox|discriminate].
    - cbn [g_call]. apply bind_nox; [|discriminate]. unfold g_current. apply bind_nox.
      + unfold s_get_current. apply bind_nox; [apply (peek_nox o); apply G|]. intros [a|] _; [|discriminate]. apply bind_nox; [apply chk_nox|discriminate].
      + intros [a|] _; [|discriminate]. apply bind_nox; [apply finish_nox|discriminate].
    - discriminate.
    - cbn [g_call]. apply bind_nox; [|discriminate]. unfold g_clear, s_clear. apply bind_nox; [|discriminate].
      apply bind_nox; [apply get_ts_nox|]. intros t _. apply bind_nox; [apply chk_nox|discriminate].
  Qed.
  Lemma take_keep o step res t x g b g1 : Good o step res (g_sep g) -> gop_typed (GoAdd x 0 0) -> re_take t x g = Ok (b, g1) ->
    Good o step res (g_sep g1) /\ ahead step (g_sep g) (g_sep g1).
  Proof.
    intros G [T N] E. unfold re_take in E. destruct (chk _); cbn [bind] in E; try discriminate.
    destruct (t <? _); [injection E as _ <-; split; [exact G|apply ahead_refl]|].
    assert (X : g1 = set_red (addf_of x (s_red (g_sep g))) g) by (destruct x; try discriminate; injection E as _ <-; reflexivity). subst g1.
    destruct G as (R & I & S & Q). split; [split; [apply run_to_add; assumption|auto]|intros _; cbn; lia].
  Qed.
  Lemma take_nox t x g : not_list x -> re_take t x g <> Exn.
  Proof.
    intros N. unfold re_take. apply bind_nox; [apply chk_nox|]. intros c _. destruct (t <? c); [discriminate|].
    destruct x; cbn [not_list] in N; try contradiction; discriminate.
  Qed.

  Definition typed_b := beh_all gop_typed.
  Definition typed_c := rc_all gop_typed.
  Lemma ahead_red step s r g : ahead step s (g_sep g) -> ahead step s (g_sep (set_red r g)). Proof. auto. Qed.
  Lemma re_keep o step res n :
    (forall fin ts bs g evs g', Good o step res (g_sep g) -> Forall typed_b bs -> re_loop ne n fin ts bs g = Ok (evs, g') -> Good o step res (g_sep g')) /\
    (forall cs g evs g', Good o step res (g_sep g) -> Forall typed_c cs -> re_calls ne n cs g = Ok (evs, g') -> Good o step res (g_sep g')) /\
    (forall c g evs g', Good o step res (g_sep g) -> typed_c c -> re_call ne n c g = Ok (evs, g') -> Good o step res (g_sep g')).
  Proof.
    induction n as [|n (IHl & IHs & IHc)]; [split; [|split]; discriminate|]. split; [|split].
    - intros fin ts bs g evs g' G HB E. rewrite re_loop_S in E. destruct (_ <=? ts); [|injection E as _ <-; exact G].
      destruct (r_detach ne _) as [[a r1]| |] eqn:Ed; cbn [bind] in E; try discriminate. cbv zeta in E.
      destruct (head_all _ _ HB) as [HB1 HB2].
      assert (G1 : Good o step res (g_sep (set_red r1 g))).
      { destruct G as (R & I & S & Q). split; [exact (run_to_detach ne o _ a r1 R Ed)|split; [exact I|split; [exact S|exact Q]]]. }
      match type of E with bind ?y _ = _ => destruct y as [[[e1 bs1] g2]| |] eqn:E1 end; cbn [bind] in E; try discriminate.
      assert (X : Good o step res (g_sep g2) /\ Forall typed_b bs1).
      { destruct a as [x|]; [|injection E1 as _ <- <-; split; assumption]. destruct (chk _) as [t| |]; cbn [bind] in E1; try discriminate.
        destruct (if fin then _ else _) as [d| |]; cbn [bind] in E1; try discriminate.
        destruct (re_calls ne n _ _) as [[e2 g3]| |] eqn:Ec; cbn [bind] in E1; try discriminate. injection E1 as _ <- <-.
        split; [exact (IHs _ _ _ _ G1 HB1 Ec)|exact HB2]. }
      destruct X as [G2 HB3]. clear E1. destruct (chk _) as [nx| |] eqn:En; cbn [bind] in E; try discriminate. apply chk_ok in En as [-> In].
      destruct (re_loop ne n _ _ _ _) as [[e2 g3]| |] eqn:El; cbn [bind] in E; try discriminate. injection E as _ <-.
      refine (IHl _ _ _ _ _ _ _ HB3 El). destruct G2 as (R & I & S & Q). split; [exact R|split; [exact In|split; [exact S|exact Q]]].
    - intros cs g evs g' G HC E. rewrite re_calls_S in E. destruct cs as [|c cs]; [injection E as _ <-; exact G|].
      destruct (re_call ne n c g) as [[e1 g1]| |] eqn:E1; cbn [bind] in E; try discriminate.
      destruct (re_calls ne n cs g1) as [[e2 g2]| |] eqn:E2; cbn [bind] in E; try discriminate. injection E as _ <-.
      exact (IHs _ _ _ _ (IHc _ _ _ _ G (Forall_inv HC) E1) (Forall_inv_tail HC) E2).
    - intros [op bs] g evs g' G [HO HB] E. cbn [fst snd] in HO, HB. rewrite re_call_S in E. cbv zeta in E.
      assert (PL : ('(o0, g1) <- g_call ne op g ;; Ok ([RDone (g_enabled g) op o0], g1)) = Ok (evs, g') -> Good o step res (g_sep g')).
      { intros H. destruct (g_call ne op g) as [[o0 g1]| |] eqn:Eg; cbn [bind] in H; try discriminate. injection H as _ <-. apply (call_keep _ _ _ _ _ _ _ G HO Eg). }
      destruct op as [x c1 c2|x [|] c1 c2|ts [|] force c| | | |v|ts c]; try (exact (PL E)); clear PL.
      + destruct (g_enabled g) eqn:En; cbn [negb] in E; [|injection E as _ <-; exact G].
        destruct (get_ts _ _ _ _) as [t| |]; cbn [bind] in E; try discriminate.
        destruct (get_ts _ _ c2 _) as [t2| |]; cbn [bind] in E; try discriminate.
        match type of E with bind ?y _ = _ => destruct y as [[e1 g1]| |] eqn:E1 end; cbn [bind] in E; try discriminate.
        destruct (re_take t x g1) as [[b g2]| |] eqn:E2; cbn [bind] in E; try discriminate. injection E as _ <-.
        assert (G1 : Good o step res (g_sep g1)).
        { destruct (t2 <? _); [injection E1 as _ <-; exact G|]. eapply IHl; eauto. }
        exact (proj1 (take_keep _ _ _ _ _ _ _ _ G1 HO E2)).
      + destruct (get_ts _ _ _ _) as [t| |]; cbn [bind] in E; try discriminate.
        match type of E with bind ?y _ = _ => destruct y as [[e1 g1]| |] eqn:E1 end; cbn [bind] in E; try discriminate.
        destruct (g_aggregate0_ ne g1) as [g2| |] eqn:E2; cbn [bind] in E; try discriminate. injection E as _ <-.
        assert (G1 : Good o step res (g_sep g1)).
        { destruct (_ && _); [injection E1 as _ <-; exact G|]. eapply IHl; eauto. }
        exact (proj1 (agg_keep _ _ _ (g_sep g1) _ _ E2 (conj G1 (ahead_refl _ _)))).
  Qed.

  Definition ends_calls (cs : list rcall) : Prop :=
    Forall typed_c cs -> forall o step res g, Good o step res (g_sep g) -> exists n, re_calls ne n cs g <> Exn.
  Definition ends_beh (b : beh) : Prop := match b with Beh cs => ends_calls cs end.
  Definition ends_call (c : rcall) : Prop := typed_c c -> forall o step res g, Good o step res (g_sep g) -> exists n, re_call ne n c g <> Exn.
  Lemma re_calls_nil n g : re_calls ne (S n) [] g = Ok ([], g). Proof. reflexivity. Qed.
  Lemma ends_loop bs : Forall ends_beh bs -> Forall typed_b bs -> forall k o step res fin ts g, step <> 0 -> Good o step res (g_sep g) ->
    rounds step ts (s_next (g_sep g)) <= Z.of_nat k -> exists n, re_loop ne n fin ts bs g <> Exn.
  Proof.
    induction bs as [|b bs IHb]; intros HE HT; induction k as [|k IHk]; intros o step res fin ts g Hs G L.
    1,3: exists 1%nat; rewrite re_loop_S; destruct (Z.leb_spec (s_next (g_sep g)) ts) as [L1|L1]; [|discriminate];
      pose proof (rounds_pos step ts _ Hs (proj1 (proj2 G)) L1); lia.
    - (* nothing left to do for the handler *)
      destruct (Z.leb_spec (s_next (g_sep g)) ts) as [L1|L1].
      2: { exists 1%nat. rewrite re_loop_S. rewrite (proj2 (Z.leb_gt _ _)) by exact L1. discriminate. }
      pose proof (rounds_next step ts (s_next (g_sep g)) Hs) as RN.
      destruct (r_detach ne (s_red (g_sep g))) as [[a r1]| |] eqn:Ed.
      2: { exists 1%nat. rewrite re_loop_S, (proj2 (Z.leb_le _ _)), Ed by exact L1. discriminate. }
      2: { exfalso. exact (reach_detach_exn ne Hne o _ (proj1 G) Ed). }
      destruct (chk (s_next (g_sep g) + s_step (g_sep g))) as [nx| |] eqn:En.
      3: { exfalso. exact (chk_nox _ En). }
      + pose proof En as En'. apply chk_ok in En' as [-> In]. pose proof (proj1 (proj2 (proj2 G))) as ES.
        destruct (IHk o step res fin ts (set_next (s_next (g_sep g) + s_step (g_sep g)) (set_red r1 g)) Hs) as (n & Hn).
        { destruct G as (R & I & S & Q). split; [exact (run_to_detach ne o _ a r1 R Ed)|split; [exact In|split; [exact S|exact Q]]]. }
        { cbn -[rounds]. rewrite ES, RN. lia. }
        exists (S (S n)). rewrite re_loop_S, (proj2 (Z.leb_le _ _)), Ed by exact L1. cbn [bind]. cbv zeta. apply bind_nox.
        * destruct a; [|discriminate]. apply bind_nox; [apply chk_nox|]. intros t _. apply bind_nox; [destruct fin; [apply finish_nox|discriminate]|].
          intros d _. rewrite re_calls_nil. discriminate.
        * intros [[e1 b1] g2] E1. assert (X : b1 = [] /\ g2 = set_red r1 g).
          { destruct a; [|injection E1 as _ <- <-; auto]. match type of E1 with bind ?y _ = _ => destruct y as [t| |] end; cbn [bind] in E1; try discriminate.
            match type of E1 with bind ?y _ = _ => destruct y as [d| |] end; cbn [bind] in E1; try discriminate. rewrite re_calls_nil in E1. cbn [bind tl] in E1. injection E1 as _ <- <-. auto. }
          destruct X as [-> ->]. change (s_next (g_sep (set_red r1 g))) with (s_next (g_sep g)). change (s_step (g_sep (set_red r1 g))) with (s_step (g_sep g)).
          rewrite En. cbn [bind]. apply bind_nox; [|intros [? ?] _; discriminate]. rewrite (loop_more n); [exact Hn|exact Hn|lia].
      + exists 2%nat. rewrite re_loop_S, (proj2 (Z.leb_le _ _)), Ed by exact L1. cbn [bind]. cbv zeta. apply bind_nox.
        * destruct a; [|discriminate]. apply bind_nox; [apply chk_nox|]. intros t _. apply bind_nox; [destruct fin; [apply finish_nox|discriminate]|].
          intros d _. rewrite re_calls_nil. discriminate.
        * intros [[e1 b1] g2] E1. assert (X : b1 = [] /\ g2 = set_red r1 g).
          { destruct a; [|injection E1 as _ <- <-; auto]. match type of E1 with bind ?y _ = _ => destruct y as [t| |] end; cbn [bind] in E1; try discriminate.
            match type of E1 with bind ?y _ = _ => destruct y as [d| |] end; cbn [bind] in E1; try discriminate. rewrite re_calls_nil in E1. cbn [bind tl] in E1. injection E1 as _ <- <-. auto. }
          destruct X as [-> ->]. change (s_next (g_sep (set_red r1 g))) with (s_next (g_sep g)). change (s_step (g_sep (set_red r1 g))) with (s_step (g_sep g)).
          rewrite En. discriminate.
    - destruct (Z.leb_spec (s_next (g_sep g)) ts) as [L1|L1].
      2: { exists 1%nat. rewrite re_loop_S. rewrite (proj2 (Z.leb_gt _ _)) by exact L1. discriminate. }
      pose proof (rounds_next step ts (s_next (g_sep g)) Hs) as RN. pose proof (proj1 (proj2 (proj2 G))) as ES.
      destruct (r_detach ne (s_red (g_sep g))) as [[a r1]| |] eqn:Ed.
      2: { exists 1%nat. rewrite re_loop_S, (proj2 (Z.leb_le _ _)), Ed by exact L1. discriminate. }
      2: { exfalso. exact (reach_detach_exn ne Hne o _ (proj1 G) Ed). }
      assert (G1 : Good o step res (g_sep (set_red r1 g))).
      { destruct G as (R & I & S & Q). split; [exact (run_to_detach ne o _ a r1 R Ed)|split; [exact I|split; [exact S|exact Q]]]. }
      destruct a as [x|].
      + destruct b as [cs]. inversion HE as [|? ? HE1 HE2]; subst. inversion HT as [|? ? HT1 HT2]; subst. inversion HT1 as [? HC]; subst.
        destruct (HE1 HC o (s_step (g_sep g)) res (set_red r1 g) G1) as (n1 & H1).
        destruct (re_calls ne n1 cs (set_red r1 g)) as [[e1 g2]| |] eqn:E1; [| |congruence].
        * pose proof (proj1 (proj2 (re_keep o (s_step (g_sep g)) res n1)) _ _ _ _ G1 HC E1) as G2.
          destruct (chk (s_next (g_sep g2) + s_step (g_sep g2))) as [nx| |] eqn:En.
          3: { exfalso. exact (chk_nox _ En). }
          -- pose proof En as En'. apply chk_ok in En' as [-> In].
             destruct (IHb HE2 HT2 (Z.to_nat (rounds (s_step (g_sep g)) ts (s_next (g_sep g2) + s_step (g_sep g2)))) o (s_step (g_sep g)) res fin ts
               (set_next (s_next (g_sep g2) + s_step (g_sep g2)) g2) Hs) as (n2 & H2).
             { destruct G2 as (R & I & S & Q). split; [exact R|split; [exact In|split; [exact S|exact Q]]]. }
             { cbn -[rounds Z.to_nat]. lia. }
             exists (S (n1 + n2)). rewrite re_loop_S, (proj2 (Z.leb_le _ _)), Ed by exact L1. cbn [bind]. cbv zeta. apply bind_nox.
             { apply bind_nox; [apply chk_nox|]. intros t _. apply bind_nox; [destruct fin; [apply finish_nox|discriminate]|]. intros d _.
               rewrite (calls_more n1), E1 by (try lia; rewrite E1; discriminate). discriminate. }
             { intros [[e3 b3] g3] E3. rewrite (calls_more n1), E1 in E3 by (try lia; rewrite E1; discriminate).
               match type of E3 with bind ?y _ = _ => destruct y as [t| |] end; cbn [bind] in E3; try discriminate. match type of E3 with bind ?y _ = _ => destruct y as [d| |] end; cbn [bind tl] in E3; try discriminate.
               injection E3 as _ <- <-. rewrite En. cbn [bind]. apply bind_nox; [|intros [? ?] _; discriminate]. rewrite (loop_more n2); [exact H2|exact H2|lia]. }
          -- exists (S n1). rewrite re_loop_S, (proj2 (Z.leb_le _ _)), Ed by exact L1. cbn [bind]. cbv zeta. rewrite E1. apply bind_nox.
             { apply bind_nox; [apply chk_nox|]. intros t _. apply bind_nox; [destruct fin; [apply finish_nox|discriminate]|]. intros d _. discriminate. }
             { intros [[e3 b3] g3] E3. match type of E3 with bind ?y _ = _ => destruct y as [t| |] end; cbn [bind] in E3; try discriminate. match type of E3 with bind ?y _ = _ => destruct y as [d| |] end; cbn [bind tl] in E3; try discriminate.
               injection E3 as _ <- <-. rewrite En. discriminate. }
        * exists (S n1). rewrite re_loop_S, (proj2 (Z.leb_le _ _)), Ed by exact L1. cbn [bind]. cbv zeta. rewrite E1. apply bind_nox.
          { apply bind_nox; [apply chk_nox|]. intros t _. apply bind_nox; [destruct fin; [apply finish_nox|discriminate]|]. intros d _. discriminate. }
          { intros [[e3 b3] g3] E3. match type of E3 with bind ?y _ = _ => destruct y as [t| |] end; cbn [bind] in E3; try discriminate. match type of E3 with bind ?y _ = _ => destruct y as [d| |] end; cbn [bind tl] in E3; discriminate. }
      + destruct (chk (s_next (g_sep g) + s_step (g_sep g))) as [nx| |] eqn:En.
        3: { exfalso. exact (chk_nox _ En). }
        * pose proof En as En'. apply chk_ok in En' as [-> In].
          destruct (IHk o step res fin ts (set_next (s_next (g_sep g) + s_step (g_sep g)) (set_red r1 g)) Hs) as (n & Hn).
          { destruct G1 as (R & I & S & Q). split; [exact R|split; [exact In|split; [exact S|exact Q]]]. }
          { cbn -[rounds]. rewrite ES, RN. lia. }
          exists (S n). rewrite re_loop_S, (proj2 (Z.leb_le _ _)), Ed by exact L1. cbn [bind]. cbv zeta.
          change (s_next (g_sep (set_red r1 g))) with (s_next (g_sep g)). change (s_step (g_sep (set_red r1 g))) with (s_step (g_sep g)).
          rewrite En. cbn [bind]. apply bind_nox; [exact Hn|intros [? ?] _; discriminate].
        * exists 1%nat. rewrite re_loop_S, (proj2 (Z.leb_le _ _)), Ed by exact L1. cbn [bind]. cbv zeta.
          change (s_next (g_sep (set_red r1 g))) with (s_next (g_sep g)). change (s_step (g_sep (set_red r1 g))) with (s_step (g_sep g)).
          rewrite En. discriminate.
  Qed.
  Lemma ends_one op bs : Forall ends_beh bs -> ends_call (op, bs).
  Proof.
    intros HE [HO HB] o step res g G. cbn [fst snd] in HO, HB.
    assert (PL : forall q, q = ('(o0, g1) <- g_call ne op g ;; Ok ([RDone (g_enabled g) op o0], g1)) -> q <> Exn).
    { intros q ->. apply bind_nox; [apply (call_nox o step res); assumption|intros [? ?] _; discriminate]. }
    destruct op as [x c1 c2|x [|] c1 c2|ts [|] force c| | | |v|ts c]; try (exists 1%nat; apply PL; reflexivity); clear PL.
    - destruct (g_enabled g) eqn:En; [|exists 1%nat; rewrite re_call_S; cbv zeta; rewrite En; discriminate].
      destruct (get_ts (s_step (g_sep g)) (s_res (g_sep g)) c1 (sm_ts x)) as [t| |] eqn:Et.
      2: { exists 1%nat. rewrite re_call_S. cbv zeta. rewrite En. cbn [negb]. rewrite Et. discriminate. }
      2: { exfalso. exact (get_ts_nox _ _ _ _ Et). }
      destruct (get_ts (s_step (g_sep g)) (s_res (g_sep g)) c2 t) as [t2| |] eqn:Et2.
      2: { exists 1%nat. rewrite re_call_S. cbv zeta. rewrite En. cbn [negb]. rewrite Et. cbn [bind]. rewrite Et2. discriminate. }
      2: { exfalso. exact (get_ts_nox _ _ _ _ Et2). }
      pose proof (proj1 (proj2 (proj2 G))) as ES.
      destruct (ends_loop bs HE HB (Z.to_nat (rounds step t2 (s_next (g_sep g)))) o step res true t2 g) as (n & Hn).
      { rewrite <- ES. exact (get_ts_step _ _ _ _ _ Et). } { exact G. } { lia. }
      exists (S n). rewrite re_call_S. cbv zeta. rewrite En. cbn [negb]. rewrite Et. cbn [bind]. rewrite Et2. cbn [bind].
      apply bind_nox; [destruct (t2 <? _); [discriminate|exact Hn]|]. intros [e1 g1] _. apply bind_nox; [apply take_nox; apply HO|intros [? ?] _; discriminate].
    - destruct (get_ts (s_step (g_sep g)) (s_res (g_sep g)) c ts) as [t| |] eqn:Et.
      2: { exists 1%nat. rewrite re_call_S. cbv zeta. rewrite Et. discriminate. }
      2: { exfalso. exact (get_ts_nox _ _ _ _ Et). }
      pose proof (proj1 (proj2 (proj2 G))) as ES.
      destruct (ends_loop bs HE HB (Z.to_nat (rounds step t (s_next (g_sep g)))) o step res false t g) as (n & Hn).
      { rewrite <- ES. exact (get_ts_step _ _ _ _ _ Et). } { exact G. } { lia. }
      exists (S n). rewrite re_call_S. cbv zeta. rewrite Et. cbn [bind]. apply bind_nox; [destruct (_ && _); [discriminate|exact Hn]|].
      intros [e1 g1] _. apply bind_nox; [apply aggregate0_nox|discriminate].
  Qed.
  Lemma ends_list cs : Forall ends_call cs -> ends_calls cs.
  Proof.
    induction cs as [|c cs IH]; intros HE HT o step res g G; [exists 1%nat; discriminate|].
    destruct (Forall_inv HE (Forall_inv HT) o step res g G) as (n1 & H1). destruct (re_call ne n1 c g) as [[e1 g1]| |] eqn:E1; [| |congruence].
    - destruct (IH (Forall_inv_tail HE) (Forall_inv_tail HT) o step res g1) as (n2 & H2).
      { exact (proj2 (proj2 (re_keep o step res n1)) _ _ _ _ G (Forall_inv HT) E1). }
      exists (S (n1 + n2)). rewrite re_calls_S. rewrite (call_more n1), E1 by (try lia; rewrite E1; discriminate). cbn [bind].
      rewrite (calls_more n2) by (try lia; exact H2). apply bind_nox; [exact H2|intros [? ?] _; discriminate].
    - exists (S n1). rewrite re_calls_S, E1. discriminate.
  Qed.
  Lemma re_ends cs : ends_calls cs.
  Proof.
    apply ends_list. apply (calls_ind2 ends_beh ends_call); [exact ends_list|exact ends_one].
  Qed.

  (** * The order of the records *)
  Definition times (evs : list rev_) : list Z := map ad_ts (handed_ evs).
  Definition Ord (s : sep) (evs : list rev_) (s' : sep) : Prop :=
    sep_label s <= sep_label s' /\ StronglySorted Z.le (times evs) /\ Forall (fun t => sep_label s <= t < sep_label s') (times evs).
  Definition OrdW (s : sep) (evs : list rev_) (s' : sep) : Prop :=
    sep_label s <= sep_label s' /\ StronglySorted Z.le (times evs) /\ Forall (fun t => sep_label s <= t <= sep_label s') (times evs).
  Lemma Ord_weak s e s' : Ord s e s' -> OrdW s e s'.
  Proof. intros (A & B & C). split; [exact A|split; [exact B|]]. eapply Forall_impl; [|exact C]. cbn beta. intros; lia. Qed.
  Lemma Ord_close s e s1 s2 : OrdW s e s1 -> sep_label s1 < sep_label s2 -> Ord s e s2.
  Proof. intros (A & B & C) L. split; [lia|split; [exact B|]]. eapply Forall_impl; [|exact C]. cbn beta. intros; lia. Qed.
  Lemma OrdW_cons s d e s' : ad_ts d = sep_label s -> OrdW s e s' -> OrdW s (RHanded d :: e) s'.
  Proof.
    intros Ad (A & B & C). split; [exact A|]. change (times (RHanded d :: e)) with (ad_ts d :: times e). rewrite Ad.
    split; constructor; auto; try lia. eapply Forall_impl; [|exact C]. cbn beta. intros; lia.
  Qed.
  Lemma times_app a b : times (a ++ b) = times a ++ times b.
  Proof. unfold times. now rewrite handed_app, map_app. Qed.
  Lemma sorted_app a b m : StronglySorted Z.le a -> StronglySorted Z.le b -> Forall (fun t => t <= m) a -> Forall (fun t => m <= t) b -> StronglySorted Z.le (a ++ b).
  Proof.
    induction a as [|x a IH]; intros A B C D; cbn [app]; [exact B|]. inversion A; subst. constructor; [apply IH; auto; exact (Forall_inv_tail C)|].
    apply Forall_app. split; [assumption|]. pose proof (Forall_inv C) as X. eapply Forall_impl; [|exact D]. cbn beta in *. intros. lia.
  Qed.
  Lemma Ord_trans s a s1 b s2 : Ord s a s1 -> Ord s1 b s2 -> Ord s (a ++ b) s2.
  Proof.
    intros (A1 & A2 & A3) (B1 & B2 & B3). split; [lia|]. rewrite times_app. split.
    - apply (sorted_app _ _ (sep_label s1)); auto; eapply Forall_impl; try eassumption; cbn beta; lia.
    - apply Forall_app. split; eapply Forall_impl; try eassumption; cbn beta; lia.
  Qed.
  Lemma Ord_silent s s' evs : handed_ evs = [] -> sep_label s <= sep_label s' -> Ord s evs s'.
  Proof. intros H L. unfold Ord, times. rewrite H. repeat constructor. exact L. Qed.
  Lemma Ord_refl s evs : handed_ evs = [] -> Ord s evs s.
  Proof. intros H. apply Ord_silent; [exact H|lia]. Qed.

  Lemma re_order o step res n : 0 < step ->
    (forall fin ts bs g evs g', Good o step res (g_sep g) -> Forall (beh_all re_ok) bs -> re_loop ne n fin ts bs g = Ok (evs, g') ->
      Good o step res (g_sep g') /\ Ord (g_sep g) evs (g_sep g')) /\
    (forall cs g evs g', Good o step res (g_sep g) -> Forall (rc_all re_ok) cs -> re_calls ne n cs g = Ok (evs, g') ->
      Good o step res (g_sep g') /\ Ord (g_sep g) evs (g_sep g')) /\
    (forall c g evs g', Good o step res (g_sep g) -> rc_all re_ok c -> re_call ne n c g = Ok (evs, g') ->
      Good o step res (g_sep g') /\ Ord (g_sep g) evs (g_sep g')).
  Proof.
    intros Hs.
    assert (LA : forall s s', Good o step res s -> Good o step res s' -> ahead step s s' -> sep_label s <= sep_label s').
    { intros s s' (_ & _ & S1 & _) (_ & _ & S2 & _) A. unfold sep_label. specialize (A Hs). rewrite S1, S2. lia. }
    induction n as [|n (IHl & IHs & IHc)]; [split; [|split]; discriminate|]. split; [|split].
    - intros fin ts bs g evs g' G HB E. rewrite re_loop_S in E. destruct (_ <=? ts); [|injection E as <- <-; split; [exact G|apply Ord_refl; reflexivity]].
      destruct (r_detach ne _) as [[a r1]| |] eqn:Ed; cbn [bind] in E; try discriminate. cbv zeta in E.
      destruct (head_all _ _ HB) as [HB1 HB2].
      assert (G1 : Good o step res (g_sep (set_red r1 g))).
      { destruct G as (R & I & S & Q). split; [exact (run_to_detach ne o _ a r1 R Ed)|split; [exact I|split; [exact S|exact Q]]]. }
      match type of E with bind ?y _ = _ => destruct y as [[[e1 bs1] g2]| |] eqn:E1 end; cbn [bind] in E; try discriminate.
      assert (X : Good o step res (g_sep g2) /\ OrdW (g_sep g) e1 (g_sep g2) /\ Forall (beh_all re_ok) bs1).
      { destruct a as [x|]; [|injection E1 as <- <- <-; split; [exact G1|split; [apply Ord_weak, Ord_silent; [reflexivity|apply Z.le_refl]|exact HB]]].
        destruct (chk _) as [t| |] eqn:Et; cbn [bind] in E1; try discriminate. apply chk_ok in Et as [-> _].
        destruct (if fin then _ else _) as [d| |] eqn:Ef; cbn [bind] in E1; try discriminate.
        destruct (re_calls ne n _ _) as [[e2 g3]| |] eqn:Ec; cbn [bind] in E1; try discriminate. injection E1 as <- <- <-.
        destruct (IHs _ _ _ _ G1 HB1 Ec) as [G2 O2]. split; [exact G2|]. split; [|exact HB2].
        assert (Ad : ad_ts d = sep_label (g_sep g)).
        { destruct fin; [|injection Ef as <-; reflexivity]. destruct (finish_fun ne Hne _ _ _ Ef) as (Ei & _). unfold ad_ts. now rewrite Ei. }
        apply OrdW_cons; [exact Ad|]. exact (Ord_weak _ _ _ O2). }
      destruct X as (G2 & O2 & HB3). clear E1. destruct (chk _) as [nx| |] eqn:En; cbn [bind] in E; try discriminate. apply chk_ok in En as [-> In].
      destruct (re_loop ne n _ _ _ _) as [[e2 g3]| |] eqn:El; cbn [bind] in E; try discriminate. injection E as <- <-.
      assert (G3 : Good o step res (g_sep (set_next (s_next (g_sep g2) + s_step (g_sep g2)) g2))).
      { destruct G2 as (R & I & S & Q). split; [exact R|split; [exact In|split; [exact S|exact Q]]]. }
      destruct (IHl _ _ _ _ _ _ G3 HB3 El) as [G4 O4]. split; [exact G4|].
      apply (Ord_trans _ _ (g_sep (set_next (s_next (g_sep g2) + s_step (g_sep g2)) g2))); [|exact O4].
      apply (Ord_close _ _ (g_sep g2)); [exact O2|]. unfold sep_label. cbn [set_next g_sep g_set_sep s_next s_step]. destruct G2 as (_ & _ & S2 & _). lia.
    - intros cs g evs g' G HC E. rewrite re_calls_S in E. destruct cs as [|c cs]; [injection E as <- <-; split; [exact G|apply Ord_refl; reflexivity]|].
      destruct (re_call ne n c g) as [[e1 g1]| |] eqn:E1; cbn [bind] in E; try discriminate.
      destruct (re_calls ne n cs g1) as [[e2 g2]| |] eqn:E2; cbn [bind] in E; try discriminate. injection E as <- <-.
      destruct (IHc _ _ _ _ G (Forall_inv HC) E1) as [G1 O1]. destruct (IHs _ _ _ _ G1 (Forall_inv_tail HC) E2) as [G2 O2].
      split; [exact G2|exact (Ord_trans _ _ _ _ _ O1 O2)].
    - intros [op bs] g evs g' G [HO HB] E. cbn [fst snd] in HO, HB. rewrite re_call_S in E. cbv zeta in E.
      assert (PL : ('(o0, g1) <- g_call ne op g ;; Ok ([RDone (g_enabled g) op o0], g1)) = Ok (evs, g') -> Good o step res (g_sep g') /\ Ord (g_sep g) evs (g_sep g')).
      { intros H. destruct (g_call ne op g) as [[o0 g1]| |] eqn:Eg; cbn [bind] in H; try discriminate. injection H as <- <-.
        destruct (call_keep _ _ _ _ _ _ _ G (proj1 HO) Eg) as [G1 A]. split; [exact G1|]. apply Ord_silent; [reflexivity|]. apply (LA _ _ G G1), A, HO. }
      destruct op as [x c1 c2|x [|] c1 c2|ts [|] force c| | | |v|ts c]; try (exact (PL E)); clear PL.
      + destruct (g_enabled g) eqn:En; cbn [negb] in E; [|injection E as <- <-; split; [exact G|apply Ord_refl; reflexivity]].
        destruct (get_ts _ _ _ _) as [t| |]; cbn [bind] in E; try discriminate.
        destruct (get_ts _ _ c2 _) as [t2| |]; cbn [bind] in E; try discriminate.
        match type of E with bind ?y _ = _ => destruct y as [[e1 g1]| |] eqn:E1 end; cbn [bind] in E; try discriminate.
        destruct (re_take t x g1) as [[b g2]| |] eqn:E2; cbn [bind] in E; try discriminate. injection E as <- <-.
        assert (X : Good o step res (g_sep g1) /\ Ord (g_sep g) e1 (g_sep g1)).
        { destruct (t2 <? _); [injection E1 as <- <-; split; [exact G|apply Ord_refl; reflexivity]|]. eapply IHl; eauto. }
        destruct X as [G1 O1]. destruct (take_keep _ _ _ _ _ _ _ _ G1 (proj1 HO) E2) as [G2 A2]. split; [exact G2|].
        apply (Ord_trans _ _ (g_sep g1)); [exact O1|]. apply Ord_silent; [reflexivity|exact (LA _ _ G1 G2 A2)].
      + destruct (get_ts _ _ _ _) as [t| |]; cbn [bind] in E; try discriminate.
        match type of E with bind ?y _ = _ => destruct y as [[e1 g1]| |] eqn:E1 end; cbn [bind] in E; try discriminate.
        destruct (g_aggregate0_ ne g1) as [g2| |] eqn:E2; cbn [bind] in E; try discriminate. injection E as <- <-.
        assert (X : Good o step res (g_sep g1) /\ Ord (g_sep g) e1 (g_sep g1)).
        { destruct (_ && _); [injection E1 as <- <-; split; [exact G|apply Ord_refl; reflexivity]|]. eapply IHl; eauto. }
        destruct X as [G1 O1]. destruct (agg_keep _ _ _ (g_sep g1) _ _ E2 (conj G1 (ahead_refl _ _))) as [G2 A2]. split; [exact G2|].
        apply (Ord_trans _ _ (g_sep g1)); [exact O1|]. apply Ord_silent; [reflexivity|exact (LA _ _ G1 G2 A2)].
  Qed.

  (** * Handlers that only receive *)
  Definition silent (bs : list beh) : Prop := Forall (fun b => b = Beh []) bs.
  Lemma silent_tl bs : silent bs -> silent (tl bs) /\ @eq (list rcall) (match bs with Beh cs :: _ => cs | [] => [] end) [].
  Proof. intros [|b bs' -> H]; split; auto; constructor. Qed.
  Lemma sep_loop_more f : forall k step ts next r p, sep_loop ne f step ts next r = Ok p -> sep_loop ne (f + k) step ts next r = Ok p.
  Proof.
    induction f as [|f IH]; intros k step ts next r p E; cbn [sep_loop] in E.
    - destruct (next <=? ts) eqn:L; [discriminate|]. destruct k; cbn [Nat.add sep_loop]; rewrite L; exact E.
    - cbn [Nat.add sep_loop]. destruct (next <=? ts); [|exact E].
      destruct (r_detach ne r) as [[a r1]| |]; cbn [bind] in *; try discriminate.
      match type of E with bind ?y _ = _ => destruct y; cbn [bind] in *; try discriminate end.
      destruct (chk _); cbn [bind] in *; try discriminate.
      destruct (sep_loop ne f _ _ _ _) as [p1| |] eqn:E1; cbn [bind] in E; try discriminate. rewrite (IH _ _ _ _ _ _ E1). exact E.
  Qed.
  Lemma sep_loop_full f step ts next r p : step <> 0 -> i64 next -> sep_loop ne f step ts next r = Ok p -> sep_loop ne (sep_fuel step ts next) step ts next r = Ok p.
  Proof.
    intros Hs I E. apply (sep_loop_more f (sep_fuel step ts next)) in E. rewrite <- E. pose proof (sep_fuel_enough step ts next).
    apply sep_loop_fuel; auto; lia.
  Qed.
  Definition fin_all (fin : bool) (out : nat) (l : list adata) : outcome (list adata) := if fin then g_finish_all ne out l else Ok l.
  Lemma fin_cons fin out a l ds : fin_all fin out (a :: l) = Ok ds <->
    exists d ds', (if fin then g_finish ne out a else Ok a) = Ok d /\ fin_all fin out l = Ok ds' /\ ds = d :: ds'.
  Proof.
    unfold fin_all. destruct fin; cbn [g_finish_all].
    - split.
      + destruct (g_finish ne out a) as [d| |]; cbn [bind]; try discriminate. destruct (g_finish_all ne out l) as [ds'| |]; cbn [bind]; try discriminate.
        intros E; injection E as <-. eauto 6.
      + intros (d & ds' & -> & -> & ->). reflexivity.
    - split; [intros E; injection E as <-; eauto 6|]. intros (d & ds' & E1 & E2 & ->). congruence.
  Qed.
  Lemma set_twice n r n1 r1 g : set_next n (set_red r (set_next n1 (set_red r1 g))) = set_next n (set_red r g). Proof. reflexivity. Qed.
  Lemma set_id g : set_next (s_next (g_sep g)) (set_red (s_red (g_sep g)) g) = g.
  Proof. destruct g as [[? ? ? ? ?] ? ? ? ?]. reflexivity. Qed.
  Lemma plain_loop n : forall fin ts bs g evs g', silent bs -> re_loop ne n fin ts bs g = Ok (evs, g') ->
    exists f recs r2 n2 ds, sep_loop ne f (s_step (g_sep g)) ts (s_next (g_sep g)) (s_red (g_sep g)) = Ok (recs, r2, n2) /\
      fin_all fin (g_out g) recs = Ok ds /\ evs = map RHanded ds /\ g' = set_next n2 (set_red r2 g).
  Proof.
    induction n as [|n IH]; [discriminate|]. intros fin ts bs g evs g' HB E. rewrite re_loop_S in E.
    destruct (s_next (g_sep g) <=? ts) eqn:L.
    2: { injection E as <- <-. exists 0%nat, [], (s_red (g_sep g)), (s_next (g_sep g)), []. cbn [sep_loop]. rewrite L.
      split; [reflexivity|]. split; [destruct fin; reflexivity|]. split; [reflexivity|]. symmetry. apply set_id. }
    destruct (r_detach ne _) as [[a r1]| |] eqn:Ed; cbn [bind] in E; try discriminate. cbv zeta in E. destruct (silent_tl bs HB) as [HB1 HC].
    rewrite HC in E. destruct a as [x|].
    - destruct (chk (s_next (g_sep g) - s_step (g_sep g))) as [t| |] eqn:Et; cbn [bind] in E; try discriminate.
      destruct (if fin then _ else _) as [d| |] eqn:Ef; cbn [bind] in E; try discriminate.
      destruct (re_calls ne n [] _) as [[e0 g0]| |] eqn:Ec; cbn [bind] in E; try discriminate.
      assert (X : e0 = [] /\ g0 = set_red r1 g) by (destruct n; [discriminate|]; rewrite re_calls_nil in Ec; injection Ec as <- <-; auto).
      destruct X as [-> ->]. change (s_next (g_sep (set_red r1 g))) with (s_next (g_sep g)) in E. change (s_step (g_sep (set_red r1 g))) with (s_step (g_sep g)) in E.
      destruct (chk (s_next (g_sep g) + s_step (g_sep g))) as [nx| |] eqn:En; cbn [bind] in E; try discriminate.
      destruct (re_loop ne n _ _ _ _) as [[e2 g3]| |] eqn:El; cbn [bind] in E; try discriminate. injection E as <- <-.
      destruct (IH _ _ _ _ _ _ HB1 El) as (f & recs & r2 & n2 & ds & E1 & E2 & -> & ->).
      cbn [g_sep s_step s_next s_red set_next set_red g_set_sep g_out] in E1, E2.
      exists (S f), (ad_set_ts t x :: recs), r2, n2, (d :: ds). cbn [sep_loop]. rewrite L, Ed. cbn [bind]. rewrite Et. cbn [bind]. rewrite En. cbn [bind]. rewrite E1.
      split; [reflexivity|]. split; [apply fin_cons; eauto 6|]. split; reflexivity.
    - cbn [bind] in E. change (s_next (g_sep (set_red r1 g))) with (s_next (g_sep g)) in E. change (s_step (g_sep (set_red r1 g))) with (s_step (g_sep g)) in E.
      destruct (chk (s_next (g_sep g) + s_step (g_sep g))) as [nx| |] eqn:En; cbn [bind] in E; try discriminate.
      destruct (re_loop ne n _ _ _ _) as [[e2 g3]| |] eqn:El; cbn [bind] in E; try discriminate. injection E as <- <-.
      destruct (IH _ _ _ _ _ _ HB El) as (f & recs & r2 & n2 & ds & E1 & E2 & -> & ->).
      cbn [g_sep s_step s_next s_red set_next set_red g_set_sep g_out] in E1, E2.
      exists (S f), recs, r2, n2, ds. cbn [sep_loop]. rewrite L, Ed. cbn [bind]. rewrite En. cbn [bind]. rewrite E1.
      split; [reflexivity|]. split; [exact E2|]. split; reflexivity.
  Qed.
  Lemma loop_plain_back f : forall fin ts bs g recs r2 n2 ds, silent bs ->
    sep_loop ne f (s_step (g_sep g)) ts (s_next (g_sep g)) (s_red (g_sep g)) = Ok (recs, r2, n2) -> fin_all fin (g_out g) recs = Ok ds ->
    re_loop ne (S (S f)) fin ts bs g = Ok (map RHanded ds, set_next n2 (set_red r2 g)).
  Proof.
    induction f as [|f IH]; intros fin ts bs g recs r2 n2 ds HB E F; rewrite re_loop_S; cbn [sep_loop] in E; destruct (s_next (g_sep g) <=? ts) eqn:L; try discriminate.
    1,3: injection E as <- <- <-; assert (ds = []) by (destruct fin; injection F as <-; reflexivity); subst ds; now rewrite set_id.
    destruct (r_detach ne _) as [[a r1]| |]; cbn [bind] in *; try discriminate. cbv zeta. destruct (silent_tl bs HB) as [HB1 HC]. rewrite HC. destruct a as [x|].
    - destruct (chk (s_next (g_sep g) - s_step (g_sep g))) as [t| |]; cbn [bind] in *; try discriminate.
      destruct (chk (s_next (g_sep g) + s_step (g_sep g))) as [nx| |] eqn:En; cbn [bind] in E; try discriminate.
      destruct (sep_loop ne f _ _ _ _) as [[[rc r3] n3]| |] eqn:EL; cbn [bind] in E; try discriminate. injection E as <- <- <-.
      apply fin_cons in F as (d & ds' & F1 & F2 & ->). rewrite F1. cbn [bind]. rewrite re_calls_nil. cbn [bind].
      change (s_next (g_sep (set_red r1 g))) with (s_next (g_sep g)). change (s_step (g_sep (set_red r1 g))) with (s_step (g_sep g)). rewrite En. cbn [bind].
      rewrite (IH fin ts (tl bs) (set_next nx (set_red r1 g)) rc r3 n3 ds' HB1 EL F2). reflexivity.
    - destruct (chk (s_next (g_sep g) + s_step (g_sep g))) as [nx| |] eqn:En; cbn [bind] in E; try discriminate.
      destruct (sep_loop ne f _ _ _ _) as [[[rc r3] n3]| |] eqn:EL; cbn [bind] in E; try discriminate. injection E as <- <- <-.
      cbn [bind]. change (s_next (g_sep (set_red r1 g))) with (s_next (g_sep g)). change (s_step (g_sep (set_red r1 g))) with (s_step (g_sep g)). rewrite En. cbn [bind].
      rewrite (IH fin ts bs (set_next nx (set_red r1 g)) rc r3 n3 ds HB EL F). reflexivity.
  Qed.
  Definition call_events (g : agg) (op : gop) (out : sout) : list rev_ :=
    map RHanded (out_handler out) ++ [RDone (g_enabled g) op (mk_sout (out_bool out) [] (out_ptr out))].
  Lemma out_eta out : out_handler out = [] -> mk_sout (out_bool out) [] (out_ptr out) = out.
  Proof. destruct out. cbn. intros ->. reflexivity. Qed.
  Lemma put_sep n2 r2 g : mk_sep r2 (s_step (g_sep g)) n2 (s_res (g_sep g)) (s_list (g_sep g)) = g_sep (set_next n2 (set_red r2 g)). Proof. reflexivity. Qed.
  Lemma set_sep_id g : g_set_sep (g_sep g) g = g. Proof. destruct g. reflexivity. Qed.
  Lemma take_addf t x g : not_list x -> re_take t x g =
    (cur <- chk (s_next (g_sep g) - s_step (g_sep g)) ;; if t <? cur then Ok (false, g) else Ok (true, set_red (addf_of x (s_red (g_sep g))) g)).
  Proof. destruct x; cbn [not_list]; intros N; try contradiction; reflexivity. Qed.
  Lemma plain_call_fwd o step res n op bs g evs g1 : Good o step res (g_sep g) -> gop_typed op -> silent bs -> re_call ne n (op, bs) g = Ok (evs, g1) ->
    exists out, g_call ne op g = Ok (out, g1) /\ evs = call_events g op out.
  Proof.
    intros G T HB E. destruct n as [|n]; [discriminate|]. rewrite re_call_S in E. cbv zeta in E. unfold call_events.
    assert (PL : (match op with GoPush _ true _ _ | GoSeparate _ true _ _ => False | _ => True end) ->
      ('(o0, g2) <- g_call ne op g ;; Ok ([RDone (g_enabled g) op o0], g2)) = Ok (evs, g1) ->
      exists out, g_call ne op g = Ok (out, g1) /\ evs = map RHanded (out_handler out) ++ [RDone (g_enabled g) op (mk_sout (out_bool out) [] (out_ptr out))]).
    { intros HP H. destruct (g_call ne op g) as [[o0 g2]| |] eqn:Eg; cbn [bind] in H; try discriminate. injection H as <- <-. exists o0. split; [reflexivity|].
      pose proof (call_quiet ne _ _ _ _ HP Eg) as Q. rewrite Q, (out_eta _ Q). reflexivity. }
    destruct op as [x c1 c2|x [|] c1 c2|ts [|] force c| | | |v|ts c]; try (apply PL; [exact Logic.I|exact E]); clear PL.
    - destruct T as [T N]. rewrite call_push by exact N. unfold g_push_with.
      destruct (g_enabled g) eqn:En; cbn [negb] in *; [|injection E as <- <-; eexists; split; reflexivity].
      rewrite spush_eq by exact N. unfold s_put.
      destruct (get_ts _ _ c1 _) as [t| |] eqn:Et; cbn [bind] in *; try discriminate. unfold s_separate. cbn [negb andb].
      destruct (get_ts _ _ c2 _) as [t2| |]; cbn [bind] in *; try discriminate.
      destruct (t2 <? s_next (g_sep g)) eqn:L.
      + cbn [bind] in *. rewrite take_addf in E by exact N. destruct (chk _) as [cur| |]; cbn [bind] in *; try discriminate.
        destruct (t <? cur); cbn [bind g_finish_all] in *; injection E as <- <-; (eexists; split; [rewrite ?set_sep_id; reflexivity|reflexivity]).
      + destruct (re_loop ne n true t2 bs g) as [[e1 g2]| |] eqn:El; cbn [bind] in E; try discriminate.
        destruct (plain_loop _ _ _ _ _ _ _ HB El) as (f & recs & r2 & n2 & ds & E1 & E2 & -> & ->).
        apply sep_loop_full in E1; [|exact (get_ts_step _ _ _ _ _ Et)|apply G]. rewrite E1. cbn [bind s_next s_step].
        rewrite take_addf in E by exact N. cbn [set_next set_red g_set_sep g_sep s_next s_step] in E. destruct (chk _) as [cur| |]; cbn [bind] in *; try discriminate.
        cbn [fin_all] in E2. rewrite app_nil_r.
        destruct (t <? cur); cbn [bind] in *; rewrite E2; cbn [bind]; injection E as <- <-; (eexists; split; reflexivity).
    - cbn [g_call]. unfold g_separate, s_separate. destruct (get_ts _ _ c _) as [t| |] eqn:Et; cbn [bind] in *; try discriminate.
      destruct (negb force && _) eqn:L.
      + cbn [bind] in *. rewrite set_sep_id. destruct (g_aggregate0_ ne g) as [g2| |]; cbn [bind] in *; try discriminate. injection E as <- <-. eexists; split; reflexivity.
      + destruct (re_loop ne n false t bs g) as [[e1 g2]| |] eqn:El; cbn [bind] in E; try discriminate.
        destruct (plain_loop _ _ _ _ _ _ _ HB El) as (f & recs & r2 & n2 & ds & E1 & E2 & -> & ->).
        apply sep_loop_full in E1; [|exact (get_ts_step _ _ _ _ _ Et)|apply G]. rewrite E1. cbn [bind]. rewrite app_nil_r, put_sep.
        change (g_set_sep (g_sep (set_next n2 (set_red r2 g))) g) with (set_next n2 (set_red r2 g)).
        destruct (g_aggregate0_ ne _) as [g2| |]; cbn [bind] in *; try discriminate. injection E as <- <-.
        cbn [fin_all] in E2. injection E2 as <-. eexists; split; reflexivity.
  Qed.
  Lemma plain_call_back op bs g out g1 : gop_typed op -> silent bs -> g_call ne op g = Ok (out, g1) -> exists n, re_call ne n (op, bs) g = Ok (call_events g op out, g1).
  Proof.
    intros T HB E. unfold call_events.
    assert (PL : (match op with GoPush _ true _ _ | GoSeparate _ true _ _ => False | _ => True end) ->
      ('(o0, g2) <- g_call ne op g ;; Ok ([RDone (g_enabled g) op o0], g2)) = Ok (map RHanded (out_handler out) ++ [RDone (g_enabled g) op (mk_sout (out_bool out) [] (out_ptr out))], g1)).
    { intros HP. rewrite E. pose proof (call_quiet ne _ _ _ _ HP E) as Q. rewrite Q, (out_eta _ Q). reflexivity. }
    destruct op as [x c1 c2|x [|] c1 c2|ts [|] force c| | | |v|ts c]; try (exists 1%nat; apply PL; exact Logic.I); clear PL.
    - destruct T as [T N]. rewrite call_push in E by exact N. unfold g_push_with in E.
      destruct (g_enabled g) eqn:En; cbn [negb bind] in E; [|injection E as <- <-; exists 1%nat; rewrite re_call_S; cbv zeta; rewrite En; reflexivity].
      rewrite spush_eq in E by exact N. unfold s_put in E.
      destruct (get_ts _ _ c1 _) as [t| |] eqn:Et; cbn [bind] in E; try discriminate. unfold s_separate in E. cbn [negb andb] in E.
      destruct (get_ts _ _ c2 _) as [t2| |] eqn:Et2; cbn [bind] in E; try discriminate.
      destruct (t2 <? s_next (g_sep g)) eqn:L.
      + exists 1%nat. rewrite re_call_S. cbv zeta. rewrite En. cbn [negb]. rewrite Et. cbn [bind]. rewrite Et2. cbn [bind]. rewrite L. cbn [bind].
        rewrite take_addf by exact N. cbn [bind] in E. destruct (chk _) as [cur| |]; cbn [bind] in *; try discriminate.
        destruct (t <? cur); cbn [bind g_finish_all] in *; injection E as <- <-; [now rewrite set_sep_id|reflexivity].
      + destruct (sep_loop _ _ _ _ _ _) as [[[recs r2] n2]| |] eqn:EL; cbn [bind] in E; try discriminate.
        destruct (g_finish_all ne (g_out g) recs) as [ds| |] eqn:EF.
        2,3: exfalso; cbn [s_next s_step] in E; destruct (chk _) as [cur| |]; cbn [bind] in E; try discriminate; destruct (t <? cur); cbn [bind] in E; rewrite EF in E; discriminate.
        eexists. rewrite re_call_S. cbv zeta. rewrite En. cbn [negb]. rewrite Et. cbn [bind]. rewrite Et2. cbn [bind]. rewrite L.
        rewrite (loop_plain_back _ true t2 bs g recs r2 n2 ds HB EL EF). cbn [bind]. rewrite take_addf by exact N.
        cbn [set_next set_red g_set_sep g_sep s_next s_step] in *. destruct (chk _) as [cur| |]; cbn [bind] in *; try discriminate.
        rewrite app_nil_r in E. destruct (t <? cur); cbn [bind] in *; rewrite EF in E; cbn [bind] in E; injection E as <- <-; reflexivity.
    - cbn [g_call] in E. unfold g_separate, s_separate in E. destruct (get_ts _ _ c _) as [t| |] eqn:Et; cbn [bind] in *; try discriminate.
      destruct (negb force && _) eqn:L.
      + cbn [bind] in *. rewrite set_sep_id in E. destruct (g_aggregate0_ ne g) as [g2| |] eqn:EA; cbn [bind] in *; try discriminate. injection E as <- <-.
        exists 1%nat. rewrite re_call_S. cbv zeta. rewrite Et. cbn [bind]. rewrite L. cbn [bind]. rewrite EA. reflexivity.
      + destruct (sep_loop _ _ _ _ _ _) as [[[recs r2] n2]| |] eqn:EL; cbn [bind] in E; try discriminate. rewrite app_nil_r, put_sep in E.
        change (g_set_sep (g_sep (set_next n2 (set_red r2 g))) g) with (set_next n2 (set_red r2 g)) in E.
        destruct (g_aggregate0_ ne _) as [g2| |] eqn:EA; cbn [bind] in *; try discriminate. injection E as <- <-.
        eexists. rewrite re_call_S. cbv zeta. rewrite Et. cbn [bind]. rewrite L. rewrite (loop_plain_back _ false t bs g recs r2 n2 recs HB EL eq_refl). cbn [bind]. rewrite EA. reflexivity.
  Qed.
  Lemma plain_fwd o step res cs : forall n g evs g', Good o step res (g_sep g) -> Forall gop_typed (map fst cs) -> Forall receives_only cs ->
    re_calls ne n cs g = Ok (evs, g') -> exists outs, g_run ne g (map fst cs) = Ok (outs, g') /\ evs = as_events (g_enabled g) (map fst cs) outs.
  Proof.
    induction cs as [|[op bs] cs IH]; intros n g evs g' G T HR E; (destruct n as [|n]; [discriminate|]); rewrite re_calls_S in E.
    - injection E as <- <-. exists []. split; reflexivity.
    - destruct (re_call ne n (op, bs) g) as [[e1 g1]| |] eqn:E1; cbn [bind] in E; try discriminate.
      destruct (re_calls ne n cs g1) as [[e2 g2]| |] eqn:E2; cbn [bind] in E; try discriminate. injection E as <- <-.
      destruct (plain_call_fwd _ _ _ _ op _ _ _ _ G (Forall_inv T) (Forall_inv HR) E1) as (out & C & ->).
      destruct (call_keep _ _ _ _ _ _ _ G (Forall_inv T) C) as [G1 _].
      destruct (IH _ _ _ _ G1 (Forall_inv_tail T) (Forall_inv_tail HR) E2) as (outs & R & ->).
      exists (out :: outs). cbn [map fst g_run as_events]. rewrite C. cbn [bind]. rewrite R. split; [reflexivity|].
      unfold call_events. rewrite (enabled_call _ _ _ _ _ C), <- app_assoc. reflexivity.
  Qed.
  Lemma plain_back cs : forall g outs g', Forall gop_typed (map fst cs) -> Forall receives_only cs -> g_run ne g (map fst cs) = Ok (outs, g') ->
    exists n, re_calls ne n cs g = Ok (as_events (g_enabled g) (map fst cs) outs, g').
  Proof.
    induction cs as [|[op bs] cs IH]; intros g outs g' T HR E; cbn [map fst g_run] in E.
    - injection E as <- <-. exists 1%nat. reflexivity.
    - destruct (g_call ne op g) as [[out g1]| |] eqn:C; cbn [bind] in E; try discriminate.
      destruct (g_run ne g1 (map fst cs)) as [[os g2]| |] eqn:R; cbn [bind] in E; try discriminate. injection E as <- <-.
      destruct (plain_call_back op bs _ _ _ (Forall_inv T) (Forall_inv HR) C) as (n1 & E1).
      destruct (IH _ _ _ (Forall_inv_tail T) (Forall_inv_tail HR) R) as (n2 & E2).
      exists (S (n1 + n2)). rewrite re_calls_S. rewrite (call_more n1), E1 by (try lia; rewrite E1; discriminate). cbn [bind].
      rewrite (calls_more n2), E2 by (try lia; rewrite E2; discriminate). cbn [bind map fst as_events]. rewrite (enabled_call _ _ _ _ _ C).
      unfold call_events. rewrite <- app_assoc. reflexivity.
  Qed.
  Lemma run_keep o step res ops : forall g outs g', Good o step res (g_sep g) -> Forall gop_typed ops -> g_run ne g ops = Ok (outs, g') -> Good o step res (g_sep g').
  Proof.
    induction ops as [|op ops IH]; intros g outs g' G T E; cbn [g_run] in E; [injection E as _ <-; exact G|].
    destruct (g_call ne op g) as [[out g1]| |] eqn:C; cbn [bind] in E; try discriminate.
    destruct (g_run ne g1 ops) as [[os g2]| |] eqn:R; cbn [bind] in E; try discriminate. injection E as _ <-.
    eapply IH; [|exact (Forall_inv_tail T)|exact R]. apply (call_keep _ _ _ _ _ _ _ G (Forall_inv T) C).
  Qed.
End T.
