(** Proofs about an aggregator whose handlers call back. *)
From Coq Require Import ZArith List Bool Arith Lia Permutation Sorted.
From Verif Require Import Base SortFacts ModelTypes ModelAvg ModelReducer SpecReducer ModelSeparator SpecSeparator ModelAggregator SpecAggregator
  ModelAlloc SpecAlloc ModelAggAlloc SpecAggAlloc ReducerProofs MultiRun AllocProofs SepRun AggProofs AggRun AggFinal ThrowProofs AggAllocProofs
  ModelReenter SpecReenter.
Import ListNotations.
Local Open Scope Z_scope.

Lemma handed_app a b : handed_ (a ++ b) = handed_ a ++ handed_ b. Proof. apply flat_map_app. Qed.
Lemma popped_app a b : popped_ (a ++ b) = popped_ a ++ popped_ b. Proof. apply flat_map_app. Qed.
Lemma taken_app a b : taken_ (a ++ b) = taken_ a ++ taken_ b. Proof. apply flat_map_app. Qed.
Lemma declared_app a b : declared (a ++ b) = declared a + declared b.
Proof. unfold declared. induction a as [|x a IH]; cbn [map fold_right app]; lia. Qed.

Section T.
  Variable ne : nat -> list Z -> list Z.
  Hypothesis Hne : nth_element_ok ne.

  Lemma re_loop_S n fin ts bs g : re_loop ne (S n) fin ts bs g =
        if s_next (g_sep g) <=? ts then
          '(a, r1) <- r_detach ne (s_red (g_sep g)) ;;
          let g1 := set_red r1 g in
          '(evs, bs1, g2) <- match a with
                             | None => Ok ([], bs, g1)
                             | Some x =>
                                 t <- chk (s_next (g_sep g) - s_step (g_sep g)) ;;
                                 d <- (if fin then g_finish ne (g_out g) (ad_set_ts t x) else Ok (ad_set_ts t x)) ;;
                                 '(evs, g2) <- re_calls ne n (match bs with Beh cs :: _ => cs | [] => [] end) g1 ;;
                                 Ok (RHanded d :: evs, tl bs, g2)
                             end ;;
          next <- chk (s_next (g_sep g2) + s_step (g_sep g2)) ;;
          '(evs', g3) <- re_loop ne n fin ts bs1 (set_next next g2) ;;
          Ok (evs ++ evs', g3)
        else Ok ([], g).
  Proof. reflexivity. Qed.
  Lemma re_calls_S n cs g : re_calls ne (S n) cs g =
        match cs with
        | [] => Ok ([], g)
        | c :: cs' =>
            '(evs, g1) <- re_call ne n c g ;;
            '(evs', g2) <- re_calls ne n cs' g1 ;;
            Ok (evs ++ evs', g2)
        end.
  Proof. reflexivity. Qed.
  Lemma re_call_S n op bs g : re_call ne (S n) (op, bs) g =
        let s := g_sep g in
        match op with
        | GoPush x true c1 c2 =>
            if negb (g_enabled g) then Ok ([RDone false op (mk_sout (Some true) [] None)], g)
            else
              t <- get_ts (s_step s) (s_res s) c1 (sm_ts x) ;;
              t2 <- get_ts (s_step s) (s_res s) c2 t ;;
              '(evs, g1) <- (if t2 <? s_next s then Ok ([], g) else re_loop ne n true t2 bs g) ;;
              '(b, g2) <- re_take t x g1 ;;
              Ok (evs ++ [RDone true op (mk_sout (Some b) [] None)], g2)
        | GoSeparate ts true force c =>
            t <- get_ts (s_step s) (s_res s) c ts ;;
            let no := negb force && (t <? s_next s) in
            '(evs, g1) <- (if no then Ok ([], g) else re_loop ne n false t bs g) ;;
            g2 <- g_aggregate0_ ne g1 ;;
            Ok (evs ++ [RDone (g_enabled g) op (mk_sout (Some (negb no)) [] None)], g2)
        | _ => '(o, g1) <- g_call ne op g ;; Ok ([RDone (g_enabled g) op o], g1)
        end.
  Proof. reflexivity. Qed.

  Definition re_ok (op : gop) : Prop := gop_typed op /\ gnot_clear op.
  Definition Flow (g : agg) (ac : account) (evs : list rev_) (g' : agg) (ac' : account) : Prop :=
    flow (held g) ac (declared (taken_ evs)) (values (taken_ evs)) (handed_ evs ++ popped_ evs ++ held g') ac'.
  Lemma Flow_refl g ac : Flow g ac [] g ac.
  Proof. apply flow_refl. Qed.
  Lemma Flow_trans g a e1 g1 a1 e2 g2 a2 : Flow g a e1 g1 a1 -> Flow g1 a1 e2 g2 a2 -> Flow g a (e1 ++ e2) g2 a2.
  Proof.
    unfold Flow. intros F1 F2. apply (flow_frame (handed_ e1 ++ popped_ e1)) in F2. rewrite <- !app_assoc in F2.
    pose proof (flow_trans _ _ _ _ _ _ _ _ _ _ F1 F2) as F. rewrite taken_app, declared_app. unfold values in *. rewrite flat_map_app.
    eapply flow_perm; [exact F|reflexivity|]. rewrite handed_app, popped_app, <- !app_assoc. apply Permutation_app_head.
    apply Permutation_app_swap_app.
  Qed.
  Lemma held_red r g : held (set_red r g) = held g. Proof. reflexivity. Qed.
  Lemma held_next n g : held (set_next n g) = held g. Proof. reflexivity. Qed.

  Lemma take_flow o t x g ac b g' : RInv o ac (s_red (g_sep g)) -> gop_typed (GoAdd x 0 0) -> re_take t x g = Ok (b, g') ->
    exists ac', RInv o ac' (s_red (g_sep g')) /\ forall op, (exists h c1 c2, op = GoPush x h c1 c2) -> Flow g ac [RDone true op (mk_sout (Some b) [] None)] g' ac'.
  Proof.
    intros I [HT HL] E. unfold re_take in E. destruct (chk _) as [cur| |]; cbn [bind] in E; try discriminate. destruct (t <? cur).
    - injection E as <- <-. exists ac. split; [exact I|]. intros op (h & c1 & c2 & ->). apply flow_refl.
    - destruct (typed_add _ HT) as [A U].
      assert (X : b = true /\ g' = set_red (addf_of x (s_red (g_sep g))) g).
      { destruct x; try discriminate; injection E as <- <-; auto. }
      destruct X as [-> ->]. clear E.
      assert (Ef : exists s, f_sound ne (sm_op x) (at_value None) (s_red (g_sep g)) = Ok (FRet None, s)).
      { destruct x; eexists; reflexivity. }
      destruct Ef as (s & Ef). destruct (sound_flow ne Hne o ac _ None _ _ _ I A U Ef) as (ac' & I' & F).
      rewrite (sound_ret ne x None _ _ _ Ef) in I'. exists ac'. split; [exact I'|]. intros op (h & c1 & c2 & ->). cbv zeta in F.
      apply (flow_frame (held g)) in F. rewrite app_nil_r in F. unfold Flow. cbn -[flow declared values held] .
      unfold declared, values. cbn [map fold_right flat_map]. rewrite Z.add_0_r, app_nil_r. exact F.
  Qed.
  Lemma aggregate0_Flow g ac g1 : g_aggregate0_ ne g = Ok g1 -> Flow g ac [] g1 ac /\ s_red (g_sep g1) = s_red (g_sep g).
  Proof.
    intros E. destruct (aggregate0_flow ne Hne None g ac None g1) as (F & R & _); [|split; [exact F|exact R]].
    unfold g_aggregate0_f. cbv zeta. rewrite E. reflexivity.
  Qed.
  Lemma call_quiet op g out g1 : (match op with GoPush _ true _ _ | GoSeparate _ true _ _ => False | _ => True end) ->
    g_call ne op g = Ok (out, g1) -> out_handler out = [].
  Proof.
    intros HP E. destruct op as [x c1 c2|x [|] c1 c2|ts [|] force c| | | |v|ts c]; try contradiction; cbn [g_call] in E.
    - destruct x; [destruct (g_add _ _ _ _ _ _ _) as [[b g2]| |]|destruct (g_add_arr _ _ _ _ _ _ _) as [[b g2]| |]|discriminate|
        destruct (g_add_red _ _ _ _ _) as [[b g2]| |]]; cbn [bind] in E; try discriminate; injection E as <- _; reflexivity.
    - assert (Q : forall sa sp r, g_push_with ne sa sp false g = Ok r -> snd (fst r) = []).
      { intros sa sp r H. unfold g_push_with in H. destruct (negb _); [injection H as <-; reflexivity|]. cbn [negb] in H.
        destruct (g_add_with _ _ _) as [[b g2]| |]; cbn [bind] in H; try discriminate. injection H as <-. reflexivity. }
      unfold g_push, g_push_arr, g_push_red in E.
      destruct x; try discriminate; match type of E with bind ?y _ = _ => destruct y as [[[b rc] g2]| |] eqn:Ep end; cbn [bind] in E; try discriminate;
        injection E as <- _; exact (Q _ _ _ Ep).
    - unfold g_separate in E. destruct (s_separate _ _ _ _ _ _) as [[[b rc] s1]| |] eqn:Es; cbn [bind] in E; try discriminate.
      destruct (g_aggregate0_ _ _) as [g2| |]; cbn [bind] in E; try discriminate. injection E as <- _. exact (separate_quiet ne _ _ _ _ _ _ _ Es).
    - destruct (g_pop g). injection E as <- _. reflexivity.
    - destruct (g_force_pop _ _) as [[a g2]| |]; cbn [bind] in E; try discriminate. injection E as <- _. reflexivity.
    - destruct (g_current _ _) as [a| |]; cbn [bind] in E; try discriminate. injection E as <- _. reflexivity.
    - injection E as <- _. reflexivity.
    - cbn [g_call] in E. destruct (g_clear _ _ _); cbn [bind] in E; try discriminate. injection E as <- _. reflexivity.
  Qed.
  Lemma plain_Flow o op g ac out g1 : RInv o ac (s_red (g_sep g)) -> re_ok op ->
    (match op with GoPush _ true _ _ | GoSeparate _ true _ _ => False | _ => True end) -> g_call ne op g = Ok (out, g1) ->
    exists ac', RInv o ac' (s_red (g_sep g1)) /\ Flow g ac [RDone (g_enabled g) op out] g1 ac'.
  Proof.
    intros I [HT HN] HP E. assert (Ef : gf_call ne op None g = Ok (GRet out, g1)) by (rewrite (call_plain ne), E; reflexivity).
    destruct (call_flow ne Hne o op None g ac _ _ I HT HN Ef) as (_ & ac' & I' & F). exists ac'. split; [exact I'|]. cbv zeta in F.
    unfold Flow.
    pose proof (call_quiet _ _ _ _ HP E) as NH.
    cbn [given1 lost1 app] in F. rewrite NH in F. cbn [app] in F.
    assert (HD : declared (taken_ [RDone (g_enabled g) op out]) = ev1 (if g_enabled g then intake_of (op, None, GRet out) else Nothing)).
    { unfold taken_. cbn [flat_map]. rewrite app_nil_r. destruct (g_enabled g); [|reflexivity]. unfold intake_of. cbn [fst snd].
      destruct op; try reflexivity; destruct (out_bool out) as [[|]|]; unfold declared; cbn; lia. }
    assert (HV : values (taken_ [RDone (g_enabled g) op out]) = tr1 (if g_enabled g then intake_of (op, None, GRet out) else Nothing)).
    { unfold taken_. cbn [flat_map]. rewrite app_nil_r. destruct (g_enabled g); [|reflexivity]. unfold intake_of. cbn [fst snd].
      destruct op; try reflexivity; destruct (out_bool out) as [[|]|]; unfold values; cbn [flat_map tr1]; rewrite ?app_nil_r; reflexivity. }
    rewrite HD, HV. cbn [handed_ flat_map app]. unfold popped_. cbn [flat_map]. rewrite app_nil_r.
    replace (match op with GoPop | GoForcePop => match out_ptr out with Some a => [a] | None => [] end | _ => [] end) with (popped1 op (GRet out)) by (destruct op; reflexivity).
    exact F.
  Qed.

  Lemma head_all P bs : Forall (beh_all P) bs -> Forall (rc_all P) (match bs with Beh cs :: _ => cs | [] => [] end) /\ Forall (beh_all P) (tl bs).
  Proof.
    intros [|b bs' H H']; [split; constructor|]. destruct b as [cs]. split; [|exact H']. inversion H; subst. exact H1.
  Qed.

  Lemma re_flow o n :
    (forall fin ts bs g ac evs g', RInv o ac (s_red (g_sep g)) -> Forall (beh_all re_ok) bs -> re_loop ne n fin ts bs g = Ok (evs, g') ->
      exists ac', RInv o ac' (s_red (g_sep g')) /\ Flow g ac evs g' ac') /\
    (forall cs g ac evs g', RInv o ac (s_red (g_sep g)) -> Forall (rc_all re_ok) cs -> re_calls ne n cs g = Ok (evs, g') ->
      exists ac', RInv o ac' (s_red (g_sep g')) /\ Flow g ac evs g' ac') /\
    (forall c g ac evs g', RInv o ac (s_red (g_sep g)) -> rc_all re_ok c -> re_call ne n c g = Ok (evs, g') ->
      exists ac', RInv o ac' (s_red (g_sep g')) /\ Flow g ac evs g' ac').
  Proof.
    induction n as [|n (IHl & IHs & IHc)]; [split; [|split]; discriminate|]. split; [|split].
    - intros fin ts bs g ac evs g' I HB E. rewrite re_loop_S in E. destruct (_ <=? ts); [|injection E as <- <-; exists ac; split; [exact I|apply Flow_refl]].
      destruct (r_detach ne _) as [[a r1]| |] eqn:Ed; cbn [bind] in E; try discriminate. cbv zeta in E.
      pose proof (detach_flow ne Hne _ _ _ _ _ I Ed) as DF. destruct (head_all _ _ HB) as [HB1 HB2].
      match type of E with bind ?y _ = _ => destruct y as [[[e1 bs1] g2]| |] eqn:E1 end; cbn [bind] in E; try discriminate.
      assert (X : exists a1, RInv o a1 (s_red (g_sep g2)) /\ Flow g ac e1 g2 a1 /\ Forall (beh_all re_ok) bs1).
      { destruct a as [x|].
        - destruct DF as [I1 F1]. destruct (chk _) as [t| |]; cbn [bind] in E1; try discriminate.
          destruct (if fin then _ else _) as [d| |] eqn:Ef; cbn [bind] in E1; try discriminate.
          destruct (re_calls ne n _ _) as [[e2 g3]| |] eqn:Ec; cbn [bind] in E1; try discriminate. injection E1 as <- <- <-.
          destruct (IHs _ (set_red r1 g) account0 _ _ I1 HB1 Ec) as (a1 & Ia & Fa). exists a1. split; [exact Ia|]. split; [|exact HB2].
          change (RHanded d :: e2) with ([RHanded d] ++ e2). eapply Flow_trans; [|exact Fa]. unfold Flow. cbn -[flow held].
          rewrite held_red. pose proof (flow_frame (held g) _ _ _ _ _ _ (F1 t)) as F. rewrite app_nil_r in F.
          assert (FD : flow [ad_set_ts t x] account0 0 [] [d] account0).
          { destruct fin; [|injection Ef as <-; apply flow_refl]. apply (flow_finished (g_out g)). constructor; [apply (finish_fun ne Hne); exact Ef|constructor]. }
          apply (flow_frame (held g)) in FD. pose proof (flow_trans _ _ _ _ _ _ _ _ _ _ F FD) as F2.
          eapply flow_perm; [exact F2|reflexivity|]. change (d :: held g) with ([d] ++ held g). apply Permutation_app_comm.
        - subst r1. injection E1 as <- <- <-. exists ac. split; [exact I|]. split; [apply flow_refl|exact HB]. }
      destruct X as (a1 & I1 & F1 & HB3). clear E1 DF. destruct (chk _) as [nx| |]; cbn [bind] in E; try discriminate.
      destruct (re_loop ne n _ _ _ _) as [[e2 g3]| |] eqn:El; cbn [bind] in E; try discriminate. injection E as <- <-.
      destruct (IHl _ _ _ (set_next nx g2) a1 _ _ I1 HB3 El) as (a2 & I2 & F2). exists a2. split; [exact I2|].
      eapply Flow_trans; [exact F1|]. exact F2.
    - intros cs g ac evs g' I HC E. rewrite re_calls_S in E. destruct cs as [|c cs]; [injection E as <- <-; exists ac; split; [exact I|apply Flow_refl]|].
      destruct (re_call ne n c g) as [[e1 g1]| |] eqn:E1; cbn [bind] in E; try discriminate.
      destruct (re_calls ne n cs g1) as [[e2 g2]| |] eqn:E2; cbn [bind] in E; try discriminate. injection E as <- <-.
      destruct (IHc _ _ _ _ _ I (Forall_inv HC) E1) as (a1 & I1 & F1). destruct (IHs _ _ _ _ _ I1 (Forall_inv_tail HC) E2) as (a2 & I2 & F2).
      exists a2. split; [exact I2|]. eapply Flow_trans; eauto.
    - intros [op bs] g ac evs g' I [HO HB] E. cbn [fst snd] in HO, HB. rewrite re_call_S in E. cbv zeta in E.
      assert (PL : (match op with GoPush _ true _ _ | GoSeparate _ true _ _ => False | _ => True end) ->
        ('(o0, g1) <- g_call ne op g ;; Ok ([RDone (g_enabled g) op o0], g1)) = Ok (evs, g') ->
        exists ac', RInv o ac' (s_red (g_sep g')) /\ Flow g ac evs g' ac').
      { intros HP H. destruct (g_call ne op g) as [[o0 g1]| |] eqn:Eg; cbn [bind] in H; try discriminate. injection H as <- <-.
        eapply plain_Flow; eauto. }
      destruct op as [x c1 c2|x [|] c1 c2|ts [|] force c| | | |v|ts c]; try (apply PL; [exact Logic.I|exact E]); clear PL.
      + destruct (g_enabled g) eqn:En; cbn [negb] in E.
        * destruct (get_ts _ _ _ _) as [t| |]; cbn [bind] in E; try discriminate.
          destruct (get_ts _ _ c2 _) as [t2| |]; cbn [bind] in E; try discriminate.
          match type of E with bind ?y _ = _ => destruct y as [[e1 g1]| |] eqn:E1 end; cbn [bind] in E; try discriminate.
          destruct (re_take t x g1) as [[b g2]| |] eqn:E2; cbn [bind] in E; try discriminate. injection E as <- <-.
          assert (X : exists a1, RInv o a1 (s_red (g_sep g1)) /\ Flow g ac e1 g1 a1).
          { destruct (t2 <? _); [injection E1 as <- <-; exists ac; split; [exact I|apply Flow_refl]|]. eapply IHl; eauto. }
          destruct X as (a1 & I1 & F1). destruct (take_flow o t x g1 a1 b g2 I1 (proj1 HO) E2) as (a2 & I2 & F2). exists a2. split; [exact I2|].
          eapply Flow_trans; [exact F1|]. apply F2. eauto.
        * injection E as <- <-. exists ac. split; [exact I|apply Flow_refl].
      + destruct (get_ts _ _ _ _) as [t| |]; cbn [bind] in E; try discriminate.
        match type of E with bind ?y _ = _ => destruct y as [[e1 g1]| |] eqn:E1 end; cbn [bind] in E; try discriminate.
        destruct (g_aggregate0_ ne g1) as [g2| |] eqn:E2; cbn [bind] in E; try discriminate. injection E as <- <-.
        assert (X : exists a1, RInv o a1 (s_red (g_sep g1)) /\ Flow g ac e1 g1 a1).
        { destruct (_ && _); [injection E1 as <- <-; exists ac; split; [exact I|apply Flow_refl]|]. eapply IHl; eauto. }
        destruct X as (a1 & I1 & F1). destruct (aggregate0_Flow g1 a1 g2 E2) as [F2 R2]. exists a1. rewrite R2. split; [exact I1|].
        eapply Flow_trans; [exact F1|]. unfold Flow in *. destruct (g_enabled g); exact F2.
  Qed.
End T.
