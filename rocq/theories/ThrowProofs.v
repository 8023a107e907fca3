(** Proofs about handlers that throw. *)
From Coq Require Import ZArith List Bool Arith Lia Ascii Permutation.
From Verif Require Import Base ModelAvg ModelTypes ModelReducer SpecReducer ModelSeparator SpecSeparator ModelAggregator SpecAggregator
  ModelRegistry SpecRegistry ModelComposite ModelMeters ModelSystem ModelThrow SpecThrow SepProofs AggProofs SepSafe AggRun AggFinal.
Import ListNotations.
Local Open Scope Z_scope.

Section T.
  Variable ne : nat -> list Z -> list Z.

  Lemma detach_empty r a r1 : r_detach ne r = Ok (a, r1) -> r_empty r1 = true.
  Proof.
    unfold r_detach. destruct (r_empty r) eqn:E.
    - intros H; injection H as <- <-; exact E.
    - destruct (r_reduce ne r) as [r2| |]; cbn [bind]; try discriminate.
      destruct (f64_to_i64 _) as [z| |]; cbn [bind]; try discriminate. intros H; injection H as <- <-. reflexivity.
  Qed.
  Lemma detach_none r : r_empty r = true -> r_detach ne r = Ok (None, r).
  Proof. unfold r_detach. intros ->; reflexivity. Qed.
  Lemma detach_some r r1 : r_detach ne r = Ok (None, r1) -> r_empty r = true /\ r1 = r.
  Proof.
    unfold r_detach. destruct (r_empty r) eqn:E.
    - intros H; injection H as <-; auto.
    - destruct (r_reduce ne r) as [r2| |]; cbn [bind]; try discriminate.
      destruct (f64_to_i64 _) as [z| |]; cbn [bind]; discriminate.
  Qed.

  (** Nothing to give: no handler is called. *)
  Lemma loop_t_empty th f : forall step ts next r recs b r2 n2, r_empty r = true ->
    sep_loop_t ne th f step ts next r = Ok (recs, b, r2, n2) -> recs = [] /\ b = false.
  Proof.
    induction f as [|f IH]; intros step ts next r recs b r2 n2 Er E; cbn [sep_loop_t] in E; destruct (next <=? ts).
    - discriminate.
    - injection E as <- <- _ _; auto.
    - rewrite (detach_none _ Er) in E. cbn [bind] in E.
      destruct (chk (next + step)); cbn [bind] in E; try discriminate. eapply IH; eauto.
    - injection E as <- <- _ _; auto.
  Qed.
  Lemma loop_empty f : forall step ts next r recs r2 n2, r_empty r = true ->
    sep_loop ne f step ts next r = Ok (recs, r2, n2) -> recs = [].
  Proof.
    induction f as [|f IH]; intros step ts next r recs r2 n2 Er E; cbn [sep_loop] in E; destruct (next <=? ts).
    - discriminate.
    - injection E as <- _ _; auto.
    - rewrite (detach_none _ Er) in E. cbn [bind] in E.
      destruct (chk (next + step)); cbn [bind] in E; try discriminate.
      destruct (sep_loop ne f _ _ _ _) as [[[rc r3] n3]| |] eqn:EL; cbn [bind] in E; try discriminate.
      injection E as <- _ _. cbn [app]. eapply IH; eauto.
    - injection E as <- _ _; auto.
  Qed.

  (** A handler that throws on nothing it is given. *)
  Lemma loop_t_quiet th f : forall step ts next r recs r2 n2,
    sep_loop ne f step ts next r = Ok (recs, r2, n2) -> (forall d, In d recs -> th d = false) ->
    sep_loop_t ne th f step ts next r = Ok (recs, false, r2, n2).
  Proof.
    induction f as [|f IH]; intros step ts next r recs r2 n2 E Q; cbn [sep_loop sep_loop_t] in *; destruct (next <=? ts); try discriminate.
    - injection E as <- <- <-; reflexivity.
    - destruct (r_detach ne r) as [[a r1]| |]; cbn [bind] in *; try discriminate. destruct a as [x|]; cbn [bind] in *.
      + destruct (chk (next - step)) as [t| |]; cbn [bind] in *; try discriminate.
        destruct (chk (next + step)) as [n1| |]; cbn [bind] in *; try discriminate.
        destruct (sep_loop ne f step ts n1 r1) as [[[rc r3] n3]| |] eqn:EL; cbn [bind] in E; try discriminate.
        injection E as <- <- <-. cbn [app] in Q. rewrite (Q _ (or_introl eq_refl)).
        rewrite (IH _ _ _ _ _ _ _ EL) by (intros d Hd; apply Q; right; exact Hd). reflexivity.
      + destruct (chk (next + step)) as [n1| |]; cbn [bind] in *; try discriminate.
        destruct (sep_loop ne f step ts n1 r1) as [[[rc r3] n3]| |] eqn:EL; cbn [bind] in E; try discriminate.
        injection E as <- <- <-. cbn [app] in Q. apply IH; auto.
    - injection E as <- <- <-; reflexivity.
  Qed.
  Lemma loop_t_back th f : forall step ts next r recs r2 n2,
    sep_loop_t ne th f step ts next r = Ok (recs, false, r2, n2) -> sep_loop ne f step ts next r = Ok (recs, r2, n2).
  Proof.
    induction f as [|f IH]; intros step ts next r recs r2 n2 E; cbn [sep_loop sep_loop_t] in *; destruct (next <=? ts); try discriminate.
    - injection E as <- <- <-; reflexivity.
    - destruct (r_detach ne r) as [[a r1]| |]; cbn [bind] in *; try discriminate. destruct a as [x|]; cbn [bind] in *.
      + destruct (chk (next - step)) as [t| |]; cbn [bind] in *; try discriminate. cbv zeta in E. destruct (th (ad_set_ts t x)); [discriminate|].
        destruct (chk (next + step)) as [n1| |]; cbn [bind] in *; try discriminate.
        destruct (sep_loop_t ne th f step ts n1 r1) as [[[[rc b] r3] n3]| |] eqn:EL; cbn [bind] in E; try discriminate.
        injection E as <- -> <- <-. rewrite (IH _ _ _ _ _ _ _ EL). reflexivity.
      + destruct (chk (next + step)) as [n1| |]; cbn [bind] in *; try discriminate. rewrite (IH _ _ _ _ _ _ _ E). reflexivity.
    - injection E as <- <- <-; reflexivity.
  Qed.
  (** ... and if it throws: on the only record, and the rest of the loop does not happen. *)
  Lemma loop_t_threw th f step ts next r recs r2 n2 :
    sep_loop_t ne th f step ts next r = Ok (recs, true, r2, n2) ->
    exists x t, r_detach ne r = Ok (Some x, r2) /\ chk (next - step) = Ok t /\ recs = [ad_set_ts t x] /\ th (ad_set_ts t x) = true /\ n2 = next.
  Proof.
    destruct f as [|f]; cbn [sep_loop_t]; destruct (next <=? ts); try discriminate.
    destruct (r_detach ne r) as [[a r1]| |] eqn:Ed; cbn [bind]; try discriminate. destruct a as [x|]; cbn [bind].
    - destruct (chk (next - step)) as [t| |]; cbn [bind]; try discriminate. cbv zeta.
      destruct (th (ad_set_ts t x)) eqn:Et.
      + intros E; injection E as <- <- <-. exists x, t. repeat (split; [reflexivity|]). split; [exact Et|reflexivity].
      + destruct (chk (next + step)) as [n1| |]; cbn [bind]; try discriminate.
        destruct (sep_loop_t ne th f step ts n1 r1) as [[[[rc b] r3] n3]| |] eqn:EL; cbn [bind]; try discriminate.
        intros E; injection E as <- -> <- <-. apply loop_t_empty in EL as [_ EL]; [discriminate|]. eapply detach_empty; eauto.
    - destruct (chk (next + step)) as [n1| |]; cbn [bind]; try discriminate. intros E.
      apply loop_t_empty in E as [_ E]; [discriminate|]. eapply detach_empty; eauto.
  Qed.
  (** The ordinary loop gives at most one record. *)
  Lemma loop_one th f step ts next r recs r2 n2 d : sep_loop ne f step ts next r = Ok (recs, r2, n2) -> In d recs ->
    recs = [d] /\ (th d = true -> exists r1, sep_loop_t ne th f step ts next r = Ok ([d], true, r1, next)).
  Proof.
    destruct f as [|f]; cbn [sep_loop sep_loop_t]; destruct (next <=? ts); try discriminate.
    - intros E; injection E as <- _ _. intros [].
    - destruct (r_detach ne r) as [[a r1]| |] eqn:Ed; cbn [bind]; try discriminate. destruct a as [x|]; cbn [bind].
      + destruct (chk (next - step)) as [t| |]; cbn [bind]; try discriminate.
        destruct (chk (next + step)) as [n1| |]; cbn [bind]; try discriminate.
        destruct (sep_loop ne f step ts n1 r1) as [[[rc r3] n3]| |] eqn:EL; cbn [bind]; try discriminate.
        intros E; injection E as <- <- <-. apply loop_empty in EL; [|eapply detach_empty; eauto]. subst rc.
        cbn [app]. intros [<-|[]]. split; [reflexivity|]. intros ->. eauto.
      + destruct (chk (next + step)) as [n1| |]; cbn [bind]; try discriminate.
        destruct (sep_loop ne f step ts n1 r1) as [[[rc r3] n3]| |] eqn:EL; cbn [bind]; try discriminate.
        intros E; injection E as <- <- <-. apply loop_empty in EL; [|eapply detach_empty; eauto]. subst rc. intros [].
    - intros E; injection E as <- _ _. intros [].
  Qed.

  (** The separator after a throw: the open window has been taken out, nothing else has happened. *)
  Definition taken (s : sep) (x : adata) (s1 : sep) : Prop :=
    exists r t, r_detach ne (s_red s) = Ok (Some x, r) /\ chk (s_next s - s_step s) = Ok t /\
      s1 = mk_sep r (s_step s) (s_next s) (s_res s) (s_list s).
  Lemma taken_pop s x s1 : s_list s = [] -> taken s x s1 ->
    exists t, chk (s_next s - s_step s) = Ok t /\ s_force_pop ne s = Ok (Some (ad_set_ts t x), s1).
  Proof.
    intros El (r & t & Ed & Et & ->). exists t. split; [exact Et|]. unfold s_force_pop, s_pop. rewrite El, Ed. cbn [bind].
    rewrite Et. reflexivity.
  Qed.
  Lemma separate_t_threw c ts th force s recs s1 : s_separate_t ne c ts th force s = Ok (None, recs, s1) ->
    exists x t, chk (s_next s - s_step s) = Ok t /\ taken s x s1 /\ recs = [ad_set_ts t x] /\ th (ad_set_ts t x) = true.
  Proof.
    unfold s_separate_t. destruct (get_ts _ _ _ _) as [t0| |]; cbn [bind]; try discriminate.
    destruct (_ && _); [discriminate|].
    destruct (sep_loop_t _ _ _ _ _ _ _) as [[[[rc b] r2] n2]| |] eqn:EL; cbn [bind]; try discriminate.
    destruct b; [|discriminate]. intros E; injection E as <- <-.
    destruct (loop_t_threw _ _ _ _ _ _ _ _ _ EL) as (x & t & Ed & Et & -> & Eth & ->).
    exists x, t. split; [exact Et|]. split; [|auto]. exists r2, t. auto.
  Qed.
  Lemma put_t_threw c1 c2 ts th addf s recs s1 : s_put_t ne c1 c2 ts th addf s = Ok (None, recs, s1) ->
    exists x t, chk (s_next s - s_step s) = Ok t /\ taken s x s1 /\ recs = [ad_set_ts t x] /\ th (ad_set_ts t x) = true.
  Proof.
    unfold s_put_t. destruct (get_ts _ _ _ _) as [t0| |]; cbn [bind]; try discriminate.
    destruct (s_separate_t ne c2 t0 th false s) as [[[b rc] s2]| |] eqn:Es; cbn [bind]; try discriminate.
    destruct b as [b|].
    - destruct (chk _); cbn [bind]; try discriminate. destruct (_ <? _); discriminate.
    - intros E; injection E as <- <-. eapply separate_t_threw; eauto.
  Qed.
  Lemma separate_t_quiet c ts th force s b recs s1 : s_separate ne c ts true force s = Ok (b, recs, s1) ->
    (forall d, In d recs -> th d = false) -> s_separate_t ne c ts th force s = Ok (Some b, recs, s1).
  Proof.
    unfold s_separate, s_separate_t. destruct (get_ts _ _ _ _) as [t0| |]; cbn [bind]; try discriminate.
    destruct (_ && _); [intros E; injection E as <- <- <-; reflexivity|].
    destruct (sep_loop _ _ _ _ _ _) as [[[rc r2] n2]| |] eqn:EL; cbn [bind]; try discriminate.
    intros E; injection E as <- <- <-. intros Q. rewrite (loop_t_quiet _ _ _ _ _ _ _ _ _ EL Q). cbn [bind].
    now rewrite app_nil_r.
  Qed.
  Lemma put_t_quiet c1 c2 ts th addf s b recs s1 : s_put ne c1 c2 ts true addf s = Ok (b, recs, s1) ->
    (forall d, In d recs -> th d = false) -> s_put_t ne c1 c2 ts th addf s = Ok (Some b, recs, s1).
  Proof.
    unfold s_put, s_put_t. destruct (get_ts _ _ _ _) as [t0| |]; cbn [bind]; try discriminate.
    destruct (s_separate ne c2 t0 true false s) as [[[b1 rc] s2]| |] eqn:Es; cbn [bind]; try discriminate.
    destruct (chk _) as [cur| |] eqn:Ec; cbn [bind]; try discriminate.
    intros E Q. assert (rc = recs) as -> by (destruct (_ <? _); now injection E).
    rewrite (separate_t_quiet _ _ _ _ _ _ _ _ Es Q). cbn [bind]. rewrite Ec. cbn [bind].
    destruct (_ <? _); injection E as <- <-; reflexivity.
  Qed.
  Lemma separate_t_loud c ts th force s b recs s1 d : s_separate ne c ts true force s = Ok (b, recs, s1) -> In d recs ->
    recs = [d] /\ (th d = true -> exists s2, s_separate_t ne c ts th force s = Ok (None, [d], s2)).
  Proof.
    unfold s_separate, s_separate_t. destruct (get_ts _ _ _ _) as [t0| |]; cbn [bind]; try discriminate.
    destruct (_ && _); [intros E; injection E as <- <- <-; intros []|].
    destruct (sep_loop _ _ _ _ _ _) as [[[rc r2] n2]| |] eqn:EL; cbn [bind]; try discriminate.
    intros E; injection E as <- <- <-. intros I. destruct (loop_one th _ _ _ _ _ _ _ _ _ EL I) as [-> H].
    split; [reflexivity|]. intros T. destruct (H T) as [r1 ->]. cbn [bind]. eauto.
  Qed.
  Lemma put_t_loud c1 c2 ts th addf s b recs s1 d : s_put ne c1 c2 ts true addf s = Ok (b, recs, s1) -> In d recs ->
    recs = [d] /\ (th d = true -> exists s2, s_put_t ne c1 c2 ts th addf s = Ok (None, [d], s2)).
  Proof.
    unfold s_put, s_put_t. destruct (get_ts _ _ _ _) as [t0| |]; cbn [bind]; try discriminate.
    destruct (s_separate ne c2 t0 true false s) as [[[b1 rc] s2]| |] eqn:Es; cbn [bind]; try discriminate.
    destruct (chk _) as [cur| |] eqn:Ec; cbn [bind]; try discriminate.
    intros E I. assert (rc = recs) as -> by (destruct (_ <? _); now injection E).
    destruct (separate_t_loud _ _ th _ _ _ _ _ _ Es I) as [-> H]. split; [reflexivity|].
    intros T. destruct (H T) as [s3 ->]. cbn [bind]. eauto.
  Qed.

  (** * The aggregator *)
  Definition addf_of (x : sample) : reducer -> reducer :=
    match x with
    | SmScalar _ v c => r_add v c | SmArr _ vs c => r_add_arr vs c | SmList _ vs => r_add_list vs | SmRed d => r_add_red d
    end.
  Lemma tg_push_eq x th c1 c2 g : not_list x ->
    tg_push ne x th c1 c2 g = g_push_t ne (fun th => s_put_t ne c1 c2 (sm_ts x) th (addf_of x)) th g.
  Proof. destruct x; cbn [not_list]; intros H; try contradiction; reflexivity. Qed.
  Lemma spush_eq x c1 c2 s : not_list x -> spush_of ne x c1 c2 s = s_put ne c1 c2 (sm_ts x) true (addf_of x) s.
  Proof. destruct x; cbn [not_list]; intros H; try contradiction; reflexivity. Qed.

  Lemma finish_in out th : forall l ds, g_finish_all ne out l = Ok ds -> (forall d, In d ds -> th d = false) ->
    forall a, In a l -> push_handler_t ne out th a = false.
  Proof.
    induction l as [|a l IH]; intros ds E Q b I; [destruct I|]. cbn [g_finish_all] in E.
    destruct (g_finish ne out a) as [d| |] eqn:Ed; cbn [bind] in E; try discriminate.
    destruct (g_finish_all ne out l) as [ds1| |] eqn:Es; cbn [bind] in E; try discriminate. injection E as <-.
    destruct I as [<-|I].
    - unfold push_handler_t. rewrite Ed. apply Q. now left.
    - eapply IH; eauto. intros d' I'. apply Q. now right.
  Qed.

  Lemma push_quiet x th c1 c2 g out g' : not_list x -> g_call ne (GoPush x true c1 c2) g = Ok (out, g') ->
    (forall d, In d (out_handler out) -> th d = false) -> tg_push ne x th c1 c2 g = Ok (TRet out, g').
  Proof.
    intros X E Q. rewrite call_push in E by exact X. rewrite tg_push_eq by exact X. unfold g_push_with, g_push_t in *.
    destruct (g_enabled g); cbn [negb] in *.
    - rewrite spush_eq in E by exact X.
      destruct (s_put _ _ _ _ _ _ _) as [[[b recs] s]| |] eqn:Ep; cbn [bind] in E; try discriminate.
      destruct (g_finish_all _ _ _) as [ds| |] eqn:Ef; cbn [bind] in E; try discriminate. injection E as <- <-.
      rewrite (put_t_quiet _ _ _ (push_handler_t ne (g_out g) th) _ _ _ _ _ Ep) by (eapply finish_in; eauto).
      cbn [bind]. rewrite Ef. reflexivity.
    - cbn [bind] in E. injection E as <- <-. reflexivity.
  Qed.
  Lemma push_loud x th c1 c2 g out g' d : not_list x -> g_call ne (GoPush x true c1 c2) g = Ok (out, g') ->
    In d (out_handler out) -> out_handler out = [d] /\ (th d = true -> exists g2, tg_push ne x th c1 c2 g = Ok (TThrew [d], g2)).
  Proof.
    intros X E I. rewrite call_push in E by exact X. rewrite tg_push_eq by exact X. unfold g_push_with, g_push_t in *.
    destruct (g_enabled g); cbn [negb] in *.
    - rewrite spush_eq in E by exact X.
      destruct (s_put _ _ _ _ _ _ _) as [[[b recs] s]| |] eqn:Ep; cbn [bind] in E; try discriminate.
      destruct (g_finish_all _ _ _) as [ds| |] eqn:Ef; cbn [bind] in E; try discriminate. injection E as <- <-. cbn [out_handler] in *.
      destruct recs as [|a recs]; [cbn in Ef; injection Ef as <-; destruct I|].
      destruct (put_t_loud _ _ _ (push_handler_t ne (g_out g) th) _ _ _ _ _ a Ep (or_introl eq_refl)) as [Er H]. injection Er as ->.
      cbn [g_finish_all] in Ef. destruct (g_finish ne (g_out g) a) as [d0| |] eqn:Ed; cbn [bind] in Ef; try discriminate.
      injection Ef as <-. destruct I as [->|[]]. split; [reflexivity|]. intros T.
      destruct H as [s2 ->]; [unfold push_handler_t; now rewrite Ed|]. cbn [bind g_finish_all]. rewrite Ed. cbn [bind]. eauto.
    - cbn [bind] in E. injection E as <- <-. destruct I.
  Qed.
  Lemma push_threw x th c1 c2 g recs g' : s_list (g_sep g) = [] -> tg_push ne x th c1 c2 g = Ok (TThrew recs, g') ->
    g_enabled g = true /\ exists d, recs = [d] /\ th d = true /\ g_call ne GoForcePop g = Ok (mk_sout None [] (Some d), g').
  Proof.
    intros El E.
    assert (X : not_list x) by (destruct x; cbn in E; [exact Logic.I|exact Logic.I|discriminate|exact Logic.I]).
    rewrite tg_push_eq in E by exact X. unfold g_push_t in E.
    destruct (g_enabled g) eqn:En; cbn [negb] in E; [|discriminate]. split; [reflexivity|].
    destruct (s_put_t _ _ _ _ _ _ _) as [[[b rs] s]| |] eqn:Ep; cbn [bind] in E; try discriminate.
    destruct (g_finish_all _ _ _) as [ds| |] eqn:Ef; cbn [bind] in E; try discriminate.
    destruct b; [discriminate|]. injection E as <- <-.
    destruct (put_t_threw _ _ _ _ _ _ _ _ Ep) as (a & t & Et & Tk & -> & Th).
    destruct (taken_pop _ _ _ El Tk) as (t' & Et' & Ef').
    rewrite Et in Et'. injection Et' as <-. cbn [g_finish_all] in Ef.
    destruct (g_finish ne (g_out g) (ad_set_ts t a)) as [d| |] eqn:Ed; cbn [bind] in Ef; try discriminate. injection Ef as <-.
    unfold push_handler_t in Th. rewrite Ed in Th. exists d. split; [reflexivity|]. split; [exact Th|].
    cbn [g_call]. unfold g_force_pop. rewrite Ef'. cbn [bind]. rewrite Ed. reflexivity.
  Qed.

  Lemma sep_quiet ts th force c g out g' : g_call ne (GoSeparate ts true force c) g = Ok (out, g') ->
    (forall d, In d (out_handler out) -> th d = false) -> tg_separate ne ts th force c g = Ok (TRet out, g').
  Proof.
    cbn [g_call]. unfold g_separate, tg_separate.
    destruct (s_separate _ _ _ _ _ _) as [[[b recs] s]| |] eqn:Es; cbn [bind]; try discriminate.
    destruct (g_aggregate0_ ne _) as [g1| |] eqn:Ea; cbn [bind]; try discriminate.
    intros E; injection E as <- <-. cbn [out_handler]. intros Q. rewrite (separate_t_quiet _ _ _ _ _ _ _ _ Es Q). cbn [bind].
    rewrite Ea. reflexivity.
  Qed.
  Lemma sep_loud ts th force c g out g' d : g_call ne (GoSeparate ts true force c) g = Ok (out, g') ->
    In d (out_handler out) -> out_handler out = [d] /\ (th d = true -> exists g2, tg_separate ne ts th force c g = Ok (TThrew [d], g2)).
  Proof.
    cbn [g_call]. unfold g_separate, tg_separate.
    destruct (s_separate _ _ _ _ _ _) as [[[b recs] s]| |] eqn:Es; cbn [bind]; try discriminate.
    destruct (g_aggregate0_ ne _) as [g1| |] eqn:Ea; cbn [bind]; try discriminate.
    intros E; injection E as <- <-. cbn [out_handler]. intros I.
    destruct (separate_t_loud _ _ th _ _ _ _ _ _ Es I) as [-> H]. split; [reflexivity|].
    intros T. destruct (H T) as [s2 ->]. cbn [bind]. eauto.
  Qed.
  (** A record as the separator makes it and as the aggregator finishes it. *)
  Lemma sep_threw ts th force c g recs g' : s_list (g_sep g) = [] -> tg_separate ne ts th force c g = Ok (TThrew recs, g') ->
    exists a, recs = [a] /\ th a = true /\
      s_force_pop ne (g_sep g) = Ok (Some a, g_sep g') /\ g' = g_set_sep (g_sep g') g.
  Proof.
    intros El. unfold tg_separate.
    destruct (s_separate_t _ _ _ _ _ _) as [[[b rs] s]| |] eqn:Es; cbn [bind]; try discriminate.
    destruct b; [destruct (g_aggregate0_ ne _); cbn [bind]; discriminate|].
    intros E; injection E as <- <-. destruct (separate_t_threw _ _ _ _ _ _ _ Es) as (a & t & Et & Tk & -> & Th).
    destruct (taken_pop _ _ _ El Tk) as (t' & Et' & Ef'). rewrite Et in Et'. injection Et' as <-.
    exists (ad_set_ts t a). split; [reflexivity|]. split; [exact Th|]. split; [exact Ef'|reflexivity].
  Qed.

  (** * Retrying *)
  Lemma loop_retry f step ts next r x r1 recs r2 n2 : r_detach ne r = Ok (x, r1) ->
    sep_loop ne f step ts next r = Ok (recs, r2, n2) -> next <=? ts = true -> sep_loop ne f step ts next r1 = Ok ([], r2, n2).
  Proof.
    intros Ed E L. destruct f as [|f]; cbn [sep_loop] in *; rewrite L in *; [discriminate|].
    rewrite Ed in E. cbn [bind] in E. rewrite (detach_none _ (detach_empty _ _ _ Ed)). cbn [bind].
    assert (E1 : exists n1 rc, chk (next + step) = Ok n1 /\ sep_loop ne f step ts n1 r1 = Ok (rc, r2, n2)).
    { destruct x as [x|]; cbn [bind] in E.
      - destruct (chk (next - step)); cbn [bind] in E; try discriminate.
        destruct (chk (next + step)) as [n1| |]; cbn [bind] in E; try discriminate.
        destruct (sep_loop ne f step ts n1 r1) as [[[rc r3] n3]| |] eqn:EL; cbn [bind] in E; try discriminate.
        injection E as _ <- <-. exists n1, rc. split; [reflexivity|exact EL].
      - destruct (chk (next + step)) as [n1| |]; cbn [bind] in E; try discriminate.
        destruct (sep_loop ne f step ts n1 r1) as [[[rc r3] n3]| |] eqn:EL; cbn [bind] in E; try discriminate.
        injection E as _ <- <-. exists n1, rc. split; [reflexivity|exact EL]. }
    destruct E1 as (n1 & rc & -> & EL). cbn [bind]. rewrite EL. cbn [bind].
    rewrite (loop_empty _ _ _ _ _ _ _ _ (detach_empty _ _ _ Ed) EL). reflexivity.
  Qed.
  Lemma sep_loop_in f step ts next r recs r2 n2 : sep_loop ne f step ts next r = Ok (recs, r2, n2) -> recs <> [] -> next <=? ts = true.
  Proof. destruct f; cbn [sep_loop]; destruct (next <=? ts); auto; intros E; injection E as <- _ _; contradiction. Qed.
  Lemma put_retry c1 c2 ts addf s b recs s2 x s1 : s_put ne c1 c2 ts true addf s = Ok (b, recs, s2) -> recs <> [] -> taken s x s1 ->
    s_put ne c1 c2 ts true addf s1 = Ok (b, [], s2).
  Proof.
    intros E R (r & t & Ed & Et & ->). unfold s_put in *. cbn [s_step s_res].
    destruct (get_ts _ _ _ _) as [t0| |]; cbn [bind] in *; try discriminate.
    unfold s_separate in *. cbn [s_step s_res s_next s_red s_list].
    destruct (get_ts _ _ c2 t0) as [t1| |]; cbn [bind] in *; try discriminate.
    destruct (negb false && (t1 <? s_next s)).
    - cbn [bind] in E. exfalso. apply R. destruct (chk _); cbn [bind] in E; try discriminate. destruct (_ <? _); injection E as _ <- _; reflexivity.
    - destruct (sep_loop _ _ _ _ _ _) as [[[rc r2] n2]| |] eqn:EL; cbn [bind] in E; try discriminate.
      cbn [s_next s_step] in E. assert (rc = recs) as ->.
      { destruct (chk _); cbn [bind] in E; try discriminate. destruct (_ <? _); now injection E. }
      rewrite (loop_retry _ _ _ _ _ _ _ _ _ _ Ed EL (sep_loop_in _ _ _ _ _ _ _ _ EL R)). cbn [bind s_next s_step s_red s_res s_list].
      destruct (chk _); cbn [bind] in *; try discriminate. destruct (_ <? _); injection E as <- <-; reflexivity.
  Qed.
  Lemma push_retry x th c1 c2 g out g2 recs g1 :
    g_call ne (GoPush x true c1 c2) g = Ok (out, g2) -> tg_push ne x th c1 c2 g = Ok (TThrew recs, g1) ->
    g_call ne (GoPush x true c1 c2) g1 = Ok (mk_sout (out_bool out) [] None, g2).
  Proof.
    intros E T.
    assert (X : not_list x) by (destruct x; cbn in T; [exact Logic.I|exact Logic.I|discriminate|exact Logic.I]).
    rewrite call_push in * by exact X. rewrite tg_push_eq in T by exact X. unfold g_push_with, g_push_t in *.
    destruct (g_enabled g) eqn:En; cbn [negb] in *; [|discriminate].
    destruct (s_put_t _ _ _ _ _ _ _) as [[[b rs] s]| |] eqn:Ep; cbn [bind] in T; try discriminate.
    destruct (g_finish_all ne (g_out g) rs) as [ds| |]; cbn [bind] in T; try discriminate.
    destruct b; [discriminate|]. injection T as <- <-. cbn [g_set_sep g_enabled g_sep g_out]. rewrite En. cbn [negb].
    rewrite spush_eq in * by exact X.
    destruct (s_put _ _ _ _ _ _ (g_sep g)) as [[[b rc] s2]| |] eqn:Eq; cbn [bind] in E; try discriminate.
    destruct (g_finish_all ne (g_out g) rc) as [ds2| |] eqn:Ef; cbn [bind] in E; try discriminate. injection E as <- <-.
    assert (R : rc <> []).
    { intros ->. rewrite (put_t_quiet _ _ _ (push_handler_t ne (g_out g) th) _ _ _ _ _ Eq) in Ep by (intros ? []). discriminate. }
    destruct (put_t_threw _ _ _ _ _ _ _ _ Ep) as (a & t & Et & Tk & -> & Th).
    rewrite (put_retry _ _ _ _ _ _ _ _ _ _ Eq R Tk). reflexivity.
  Qed.

  (** * Histories *)
  Definition kept (g g' : agg) : Prop :=
    s_list (g_sep g') = [] /\ s_step (g_sep g') = s_step (g_sep g) /\ s_res (g_sep g') = s_res (g_sep g) /\ g_out g' = g_out g.
  Lemma separate_frame c ts h force s b recs s1 : s_separate ne c ts h force s = Ok (b, recs, s1) -> s_step s1 = s_step s /\ s_res s1 = s_res s.
  Proof.
    unfold s_separate. destruct (get_ts _ _ _ _); cbn [bind]; try discriminate.
    destruct (_ && _); [intros E; injection E as _ _ <-; auto|].
    destruct (sep_loop _ _ _ _ _ _) as [[[? ?] ?]| |]; cbn [bind]; try discriminate. intros E; injection E as _ _ <-; auto.
  Qed.
  Lemma aggregate0_kept s g g' : g_aggregate0_ ne (g_set_sep s g) = Ok g' -> s_step s = s_step (g_sep g) -> s_res s = s_res (g_sep g) -> kept g g'.
  Proof.
    unfold g_aggregate0_. destruct (g_finish_all _ _ _); cbn [bind]; try discriminate. intros E A B; injection E as <-.
    repeat split; assumption.
  Qed.
  Lemma call_kept op g o g' : 0 < s_step (g_sep g) -> s_list (g_sep g) = [] -> gcoherent (s_step (g_sep g)) (s_res (g_sep g)) op ->
    g_call ne op g = Ok (o, g') -> kept g g'.
  Proof.
    intros Hs El HC E.
    assert (ADD : forall x c1 c2 b g1, not_list x -> adv_time (s_step (g_sep g)) (s_res (g_sep g)) c1 c2 (sm_ts x) = acc_time (s_step (g_sep g)) (s_res (g_sep g)) c1 (sm_ts x) ->
      g_add_with ne (sadd_of ne x c1 c2) g = Ok (b, g1) -> kept g g1).
    { intros x c1 c2 b g1 X C A. unfold g_add_with in A. destruct (g_enabled g); cbn [negb] in A.
      2: { injection A as _ <-. repeat split; auto. }
      assert (exists addf, sadd_of ne x c1 c2 (g_sep g) = s_put ne c1 c2 (sm_ts x) false addf (g_sep g)) as [addf EA]
        by (destruct x; try contradiction; eexists; reflexivity).
      rewrite EA in A. destruct (s_put _ _ _ _ _ _ _) as [[[b1 rc] s1]| |] eqn:Ep; cbn [bind] in A; try discriminate.
      destruct (put_frame _ _ _ _ _ _ _ _ _ _ Ep) as [F1 F2]. destruct b1; cbn [negb] in A.
      - destruct (g_aggregate0_ ne _) as [g2| |] eqn:Ea; cbn [bind] in A; try discriminate. injection A as _ <-.
        eapply aggregate0_kept; eauto.
      - injection A as _ <-. destruct (put_false ne _ _ _ _ _ _ _ _ Hs C Ep) as [_ ->]. repeat split; auto. }
    destruct op as [x c1 c2|x h c1 c2|ts h force c| | | |v|ts c].
    - assert (X : not_list x) by (destruct x; cbn in E; try discriminate; exact Logic.I). rewrite call_add in E by exact X.
      destruct (g_add_with _ _ _) as [[b g1]| |] eqn:Ea; cbn [bind] in E; try discriminate. injection E as _ <-. eapply ADD; eauto.
    - assert (X : not_list x) by (destruct x; cbn in E; try discriminate; exact Logic.I). rewrite call_push in E by exact X.
      unfold g_push_with in E. destruct (g_enabled g) eqn:En; cbn [negb] in E.
      2: { cbn [bind] in E. injection E as _ <-. repeat split; auto. }
      destruct h; cbn [negb] in E.
      + rewrite spush_eq in E by exact X. destruct (s_put _ _ _ _ _ _ _) as [[[b1 rc] s1]| |] eqn:Ep; cbn [bind] in E; try discriminate.
        destruct (g_finish_all _ _ _); cbn [bind] in E; try discriminate. injection E as _ <-.
        destruct (put_frame _ _ _ _ _ _ _ _ _ _ Ep) as [F1 F2].
        destruct (put_handler ne _ _ _ _ _ [] _ _ _ Ep) as [A1 _]. cbn. repeat split; auto; cbn; congruence.
      + destruct (g_add_with _ _ _) as [[b g1]| |] eqn:Ea; cbn [bind] in E; try discriminate. injection E as _ <-. eapply ADD; eauto.
    - cbn [g_call] in E. unfold g_separate in E. destruct (s_separate _ _ _ _ _ _) as [[[b rc] s1]| |] eqn:Es; cbn [bind] in E; try discriminate.
      destruct (g_aggregate0_ ne _) as [g2| |] eqn:Ea; cbn [bind] in E; try discriminate. injection E as _ <-.
      destruct (separate_frame _ _ _ _ _ _ _ _ Es). eapply aggregate0_kept; eauto.
    - cbn [g_call] in E. unfold g_pop in E. destruct (g_list g); injection E as _ <-; repeat split; auto.
    - cbn [g_call] in E. unfold g_force_pop, s_force_pop, s_pop in E. rewrite El in E.
      destruct (r_detach ne (s_red (g_sep g))) as [[a r]| |]; cbn [bind] in E; try discriminate. destruct a as [a|].
      + destruct (chk _); cbn [bind] in E; try discriminate. destruct (g_finish _ _ _); cbn [bind] in E; try discriminate.
        injection E as _ <-. repeat split; auto.
      + cbn [bind] in E. injection E as _ <-. repeat split; auto.
    - cbn [g_call] in E. destruct (g_current ne g); cbn [bind] in E; try discriminate. injection E as _ <-. repeat split; auto.
    - cbn [g_call] in E. injection E as _ <-. repeat split; auto.
    - cbn [g_call] in E. unfold g_clear, s_clear in E. destruct (get_ts _ _ _ _); cbn [bind] in E; try discriminate.
      destruct (chk _); cbn [bind] in E; try discriminate. injection E as _ <-. repeat split; auto.
  Qed.
End T.

Section H.
  Variable ne : nat -> list Z -> list Z.
  Hypothesis Hne : nth_element_ok ne.

  Lemma call_as_if op r g g' : s_list (g_sep g) = [] -> t_call ne op g = Ok (r, g') ->
    exists o, g_call ne (as_if (op, r)) g = Ok (o, g') /\ looks_like (g_out g) (op, r) o.
  Proof.
    intros El E. destruct op as [op|x th c1 c2|ts th force c]; cbn [t_call] in E.
    - destruct (g_call ne op g) as [[o g1]| |] eqn:Ec; cbn [bind] in E; try discriminate. injection E as <- <-.
      exists o. split; [exact Ec|reflexivity].
    - destruct r as [o|recs].
      + exists o. split; [|reflexivity]. cbn [as_if].
        assert (X : not_list x) by (destruct x; cbn in E; try discriminate; exact Logic.I).
        rewrite call_push by exact X. rewrite tg_push_eq in E by exact X. unfold g_push_with, g_push_t in *.
        destruct (g_enabled g); cbn [negb] in *; [|injection E as <- <-; reflexivity].
        destruct (s_put_t _ _ _ _ _ _ _) as [[[b rs] s]| |] eqn:Ep; cbn [bind] in E; try discriminate.
        destruct (g_finish_all ne (g_out g) rs) as [ds| |] eqn:Ef; cbn [bind] in E; try discriminate.
        destruct b as [b|]; [|discriminate]. injection E as <- <-. rewrite spush_eq by exact X.
        assert (EP : s_put ne c1 c2 (sm_ts x) true (addf_of x) (g_sep g) = Ok (b, rs, s)).
        { clear - Ep. unfold s_put_t, s_put in *. destruct (get_ts _ _ _ _) as [t0| |]; cbn [bind] in *; try discriminate.
          destruct (s_separate_t ne c2 t0 _ false (g_sep g)) as [[[b1 rc] s2]| |] eqn:Es; cbn [bind] in *; try discriminate.
          destruct b1 as [b1|]; [|discriminate].
          assert (ES : exists b', s_separate ne c2 t0 true false (g_sep g) = Ok (b', rc, s2)).
          { clear - Es. unfold s_separate_t, s_separate in *. destruct (get_ts _ _ _ _) as [t1| |]; cbn [bind] in *; try discriminate.
            destruct (negb false && _); [injection Es as _ <- <-; eauto|].
            destruct (sep_loop_t _ _ _ _ _ _ _) as [[[[rr bb] r2] n2]| |] eqn:EL; cbn [bind] in *; try discriminate.
            destruct bb; [discriminate|]. injection Es as _ <- <-. rewrite (loop_t_back ne _ _ _ _ _ _ _ _ _ EL). cbn [bind].
            rewrite app_nil_r. eauto. }
          destruct ES as [b' ->]. cbn [bind]. destruct (chk _); cbn [bind] in *; try discriminate.
          destruct (_ <? _); injection Ep as <- <- <-; reflexivity. }
        rewrite EP. cbn [bind]. rewrite Ef. reflexivity.
      + destruct (push_threw ne _ _ _ _ _ _ _ El E) as (_ & d & -> & T & F). eexists. split; [exact F|].
        exists d, d. split; [reflexivity|]. split; [exact T|]. split; reflexivity.
    - destruct r as [o|recs].
      + exists o. split; [|reflexivity]. cbn [as_if g_call]. unfold tg_separate, g_separate in *.
        destruct (s_separate_t _ _ _ _ _ _) as [[[b rs] s]| |] eqn:Es; cbn [bind] in E; try discriminate.
        destruct b as [b|]; [|discriminate]. destruct (g_aggregate0_ ne _) as [g1| |] eqn:Ea; cbn [bind] in E; try discriminate.
        injection E as <- <-.
        assert (ES : s_separate ne c ts true force (g_sep g) = Ok (b, rs, s)).
        { clear - Es. unfold s_separate_t, s_separate in *. destruct (get_ts _ _ _ _) as [t1| |]; cbn [bind] in *; try discriminate.
          destruct (negb force && _); [injection Es as <- <- <-; reflexivity|].
          destruct (sep_loop_t _ _ _ _ _ _ _) as [[[[rr bb] r2] n2]| |] eqn:EL; cbn [bind] in *; try discriminate.
          destruct bb; [discriminate|]. injection Es as <- <- <-. rewrite (loop_t_back ne _ _ _ _ _ _ _ _ _ EL). cbn [bind].
          now rewrite app_nil_r. }
        rewrite ES. cbn [bind]. rewrite Ea. reflexivity.
      + destruct (sep_threw ne _ _ _ _ _ _ _ El E) as (a & -> & T & F & G).
        destruct (finish_spec ne Hne (g_out g) a) as (d & Ed & Fd).
        exists (mk_sout None [] (Some d)). split.
        * cbn [as_if g_call]. unfold g_force_pop. rewrite F. cbn [bind]. rewrite Ed. cbn [bind]. now rewrite <- G.
        * exists a, d. auto.
  Qed.
  Lemma as_if_coherent step res op r : t_coherent step res op -> match op, r with TPush x _ c1 c2, TRet _ => True | _, _ => gcoherent step res (as_if (op, r)) end.
  Proof. destruct op, r; simpl; auto. Qed.
  Lemma tcall_kept op r g g' : 0 < s_step (g_sep g) -> s_list (g_sep g) = [] -> t_coherent (s_step (g_sep g)) (s_res (g_sep g)) op ->
    t_call ne op g = Ok (r, g') -> kept g g'.
  Proof.
    intros Hs El HC E. destruct (call_as_if op r g g' El E) as (o & Eo & _).
    destruct op as [op|x th c1 c2|ts th force c].
    - eapply call_kept; eauto.
    - destruct r as [o1|recs]; cbn [as_if] in Eo; [|eapply call_kept; eauto; exact Logic.I].
      assert (X : not_list x) by (destruct x; cbn in Eo; try discriminate; exact Logic.I). rewrite call_push in Eo by exact X.
      unfold g_push_with in Eo. destruct (g_enabled g) eqn:En; cbn [negb] in Eo.
      2: { cbn [bind] in Eo. injection Eo as _ <-. repeat split; auto. }
      rewrite spush_eq in Eo by exact X. destruct (s_put _ _ _ _ _ _ _) as [[[b1 rc] s1]| |] eqn:Ep; cbn [bind] in Eo; try discriminate.
      destruct (g_finish_all _ _ _); cbn [bind] in Eo; try discriminate. injection Eo as _ <-.
      destruct (put_frame _ _ _ _ _ _ _ _ _ _ Ep) as [F1 F2].
      destruct (put_handler ne _ _ _ _ _ [] _ _ _ Ep) as [A1 _]. cbn. repeat split; auto; cbn; congruence.
    - destruct r as [o1|recs]; cbn [as_if] in Eo; eapply call_kept; eauto; exact Logic.I.
  Qed.
  Lemma run_as_if ops : forall g rs g', 0 < s_step (g_sep g) -> s_list (g_sep g) = [] ->
    Forall (t_coherent (s_step (g_sep g)) (s_res (g_sep g))) ops -> t_run ne g ops = Ok (rs, g') ->
    exists outs, g_run ne g (map as_if (combine ops rs)) = Ok (outs, g') /\ Forall2 (looks_like (g_out g)) (combine ops rs) outs.
  Proof.
    induction ops as [|op ops IH]; intros g rs g' Hs El HC E; cbn [t_run] in E.
    - injection E as <- <-. exists []. split; [reflexivity|constructor].
    - destruct (t_call ne op g) as [[r g1]| |] eqn:Ec; cbn [bind] in E; try discriminate.
      destruct (t_run ne g1 ops) as [[rs1 g2]| |] eqn:Er; cbn [bind] in E; try discriminate. injection E as <- <-.
      destruct (call_as_if _ _ _ _ El Ec) as (o & Eo & Lo).
      destruct (tcall_kept _ _ _ _ Hs El (Forall_inv HC) Ec) as (K1 & K2 & K3 & K4).
      destruct (IH g1 rs1 g2) as (outs & Eos & Los); auto.
      { now rewrite K2. } { rewrite K2, K3. exact (Forall_inv_tail HC). }
      exists (o :: outs). cbn [combine map g_run]. rewrite Eo. cbn [bind]. rewrite Eos. split; [reflexivity|].
      constructor; [exact Lo|]. now rewrite <- K4.
  Qed.

  Lemma sum_count_app l m : sum_count (l ++ m) = sum_count l + sum_count m.
  Proof. unfold sum_count. rewrite map_app, fold_right_app. induction (map ad_count l); simpl; lia. Qed.
  Lemma looks_sum out ops : forall rs outs, Forall2 (looks_like out) (combine ops rs) outs -> length rs = length ops ->
    sum_count (flat_map out_handler outs) + sum_count (gpopped (map as_if (combine ops rs)) (map out_ptr outs)) =
    sum_count (given rs) + sum_count (returned ops rs).
  Proof.
    induction ops as [|op ops IH]; intros rs outs H L; destruct rs as [|r rs]; try discriminate.
    - inversion H. reflexivity.
    - cbn [combine] in H. inversion H as [|q o l1 os Lo Los]; subst. specialize (IH _ _ Los ltac:(simpl in L; lia)).
      unfold given, returned in *. cbn [flat_map map gpopped combine]. rewrite !sum_count_app.
      unfold looks_like in Lo. cbn [fst snd] in Lo. destruct r as [o'|recs].
      + subst o'. destruct op as [g|x th c1 c2|ts th force c]; cbn [as_if]; [destruct g; try destruct (out_ptr o); cbn [app] in *; lia|cbn [app] in *; lia|cbn [app] in *; lia].
      + destruct Lo as (a & d & -> & T & -> & D). destruct op as [g|x th c1 c2|ts th force c]; cbn [throws_on] in T; [discriminate| |]; cbn [as_if out_handler out_ptr].
        * subst d. change (sum_count []) with 0. cbn [app] in *. lia.
        * destruct D as (D & _). change (sum_count []) with 0. cbn [app] in *.
          assert (sum_count [a] = sum_count [d]) by (unfold sum_count; cbn [map fold_right]; unfold ad_count; now rewrite D). lia.
  Qed.
  Lemma looks_recorded step res out ops : forall en rs outs, Forall2 (looks_like out) (combine ops rs) outs -> length rs = length ops ->
    map snd (recorded step res en (map as_if (combine ops rs)) (map out_bool outs)) = t_recorded en ops rs.
  Proof.
    induction ops as [|op ops IH]; intros en rs outs H L; destruct rs as [|r rs]; try discriminate; [reflexivity|].
    cbn [combine] in H. inversion H as [|q o l1 os Lo Los]; subst.
    cbn [map recorded combine t_recorded]. rewrite map_app.
    rewrite (IH _ _ _ Los) by (simpl in L; lia).
    unfold looks_like in Lo. cbn [fst snd] in Lo. destruct r as [o'|recs].
    - subst o'. destruct op as [g|x th c1 c2|ts th force c]; cbn [as_if en_after].
      + destruct g; try reflexivity; destruct (out_bool o) as [[|]|]; try reflexivity; destruct en; reflexivity.
      + destruct (out_bool o) as [[|]|]; try reflexivity. destruct en; reflexivity.
      + reflexivity.
    - destruct Lo as (a & d & -> & T & -> & D). destruct op as [g|x th c1 c2|ts th force c]; cbn [throws_on] in T; [discriminate| |];
        cbn [as_if en_after out_bool]; reflexivity.
  Qed.
  Lemma trun_length ops : forall g rs g', t_run ne g ops = Ok (rs, g') -> length rs = length ops.
  Proof.
    induction ops as [|op ops IH]; intros g rs g' E; cbn [t_run] in E.
    - injection E as <- _. reflexivity.
    - destruct (t_call ne op g) as [[r g1]| |]; cbn [bind] in E; try discriminate.
      destruct (t_run ne g1 ops) as [[rs1 g2]| |] eqn:Er; cbn [bind] in E; try discriminate. injection E as <- <-. simpl. now rewrite (IH _ _ _ Er).
  Qed.
  Lemma as_if_typed op r : t_typed op -> gop_typed (as_if (op, r)).
  Proof. destruct op, r; simpl; auto. Qed.
  Lemma as_if_not_clear op r : t_not_clear op -> gnot_clear (as_if (op, r)).
  Proof. destruct op, r; simpl; auto. Qed.
  Lemma as_if_forall (P : top -> Prop) (Q : gop -> Prop) : (forall op r, P op -> Q (as_if (op, r))) ->
    forall ops rs, Forall P ops -> Forall Q (map as_if (combine ops rs)).
  Proof.
    intros H. induction ops as [|op ops IH]; intros rs F; [constructor|]. destruct rs as [|r rs]; [constructor|].
    cbn [combine map]. constructor; [apply H; exact (Forall_inv F)|apply IH; exact (Forall_inv_tail F)].
  Qed.
End H.

Lemma new_facts o c rnd ts g : agg_new o c rnd ts = Ok g ->
  s_list (g_sep g) = [] /\ s_step (g_sep g) = so_step (ao_sep o) /\ s_res (g_sep g) = so_res (ao_sep o) /\ g_out g = ao_out o.
Proof.
  unfold agg_new. destruct (sep_new _ _ _ _) as [s| |] eqn:Es; cbn [bind]; try discriminate. intros E; injection E as <-. cbn [g_sep g_out].
  unfold sep_new in Es. repeat match type of Es with (x <- ?m ;; _) = _ => destruct m; cbn [bind] in Es; try discriminate end.
  injection Es as <-. auto.
Qed.
Lemma new_enabled o c rnd ts g : agg_new o c rnd ts = Ok g -> g_enabled g = true.
Proof. unfold agg_new. destruct (sep_new _ _ _ _); cbn [bind]; try discriminate. intros E; injection E as <-. reflexivity. Qed.
