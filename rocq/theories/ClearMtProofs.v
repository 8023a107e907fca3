(** Proofs about pushers and clear() among threads. *)
From Coq Require Import ZArith List Bool Arith Lia.
From Verif Require Import Base ModelTypes ModelReducer SpecReducer ModelSeparator SpecSeparator ModelAggregator SpecAggregator ModelRegistry
  ListFacts AggFinal MultiRun ModelClearMt SpecClearMt.
Import ListNotations.

Lemma mine_app t a b : mine t (a ++ b) = mine t a ++ mine t b.
Proof. apply filter_app. Qed.
Lemma done_app a b : done_to (a ++ b) = done_to a ++ done_to b.
Proof. apply flat_map_app. Qed.
Lemma made_app a b : pushers_made (a ++ b) = pushers_made a ++ pushers_made b.
Proof. apply flat_map_app. Qed.
Lemma one_call_mono t ps ps' l : one_call t ps l -> one_call t (ps ++ ps') l.
Proof.
  intros [op o|h|p x c1 c2|p x c1 c2 h o H]; constructor. rewrite nth_error_app1; [exact H|]. apply nth_error_Some. congruence.
Qed.
Lemma one_call_last t ps l : one_call t ps l -> exists l', l = l' ++ [VRet t].
Proof.
  intros [op o|h|p x c1 c2|p x c1 c2 h o H].
  - exists [VInv t (CmCall op); VDid t op o]. reflexivity.
  - exists [VInv t (CmMake h); VMade t h]. reflexivity.
  - exists [VInv t (CmPush p x c1 c2)]. reflexivity.
  - exists [VInv t (CmPush p x c1 c2); VDid t (GoPush x h c1 c2) o]. reflexivity.
Qed.
Lemma calls_last t ps cs : Forall (one_call t ps) cs -> concat cs = [] \/ exists l, concat cs = l ++ [VRet t].
Proof.
  intros H. destruct (list_snoc cs) as [->|(a & c & ->)]; [now left|]. right. rewrite concat_snoc. apply Forall_app in H.
  destruct H as [_ H]. inversion_clear H as [|? ? H1 _]. destruct (one_call_last _ _ _ H1) as [l ->]. exists (concat a ++ l). now rewrite app_assoc.
Qed.

Definition no_inv (e : cmev) : Prop := match e with VInv _ _ => False | _ => True end.
(** The pusher a thread is inside of is that of the call it is in. *)
Lemma inside_cur t p evs ps cs cur : mine t evs = concat cs ++ cur -> Forall (one_call t ps) cs -> Forall no_inv (tl cur) ->
  inside_pusher t p evs -> exists x c1 c2 r, cur = VInv t (CmPush p x c1 c2) :: r.
Proof.
  intros M F N (l & x & c1 & c2 & r & E & NR). rewrite M in E.
  destruct (Nat.lt_trichotomy (length l) (length (concat cs))) as [L|[L|L]].
  - exfalso. destruct (calls_last _ _ _ F) as [C|[l' C]]; [rewrite C in L; cbn in L; lia|].
    assert (P : concat cs = l ++ skipn (length l) (concat cs)).
    { rewrite <- (firstn_skipn (length l) (concat cs)) at 1. f_equal.
      apply (f_equal (firstn (length l))) in E. rewrite !firstn_app in E. rewrite Nat.sub_diag, firstn_all in E. cbn in E. rewrite app_nil_r in E.
      replace (length l - length (concat cs))%nat with 0%nat in E by lia. cbn in E. now rewrite app_nil_r in E. }
    set (q := skipn (length l) (concat cs)) in *. rewrite P, <- app_assoc in E. apply app_inv_head in E.
    destruct q as [|e q]; [rewrite app_nil_r in P; rewrite P in L; lia|]. cbn in E. injection E as -> E. rewrite C in P.
    destruct (list_snoc q) as [->|(q' & y & ->)].
    + apply app_inj_tail in P. destruct P as [_ P]. discriminate.
    + change (VInv t (CmPush p x c1 c2) :: q' ++ [y]) with ((VInv t (CmPush p x c1 c2) :: q') ++ [y]) in P. rewrite app_assoc in P.
      apply app_inj_tail in P. destruct P as [_ <-]. apply NR. rewrite <- E. apply in_or_app. left. apply in_or_app. right. now left.
  - assert (A : l = concat cs).
    { apply (f_equal (firstn (length l))) in E. rewrite !firstn_app, Nat.sub_diag, firstn_all in E. cbn in E.
      rewrite app_nil_r in E. rewrite L, Nat.sub_diag, firstn_all in E. cbn in E. rewrite app_nil_r in E. now symmetry. }
    subst l. apply app_inv_head in E. rewrite E. now exists x, c1, c2, r.
  - exfalso. assert (A : exists e m, l = concat cs ++ e :: m).
    { assert (Q : l = concat cs ++ skipn (length (concat cs)) l).
      { rewrite <- (firstn_skipn (length (concat cs)) l) at 1. f_equal.
        apply (f_equal (firstn (length (concat cs)))) in E. rewrite !firstn_app, Nat.sub_diag, firstn_all in E. cbn in E. rewrite app_nil_r in E.
        replace (length (concat cs) - length l)%nat with 0%nat in E by lia. cbn in E. rewrite app_nil_r in E. now symmetry. }
      destruct (skipn (length (concat cs)) l) as [|e m] eqn:S; [rewrite app_nil_r in Q; rewrite <- Q in L; lia|]. now exists e, m. }
    destruct A as (e & m & ->). rewrite <- app_assoc in E. apply app_inv_head in E. rewrite E in N. cbn in N.
    rewrite Forall_forall in N. specialize (N (VInv t (CmPush p x c1 c2))). cbn in N. apply N. apply in_or_app. right. now left.
Qed.

Section Inv.
  Variable ne : nat -> list Z -> list Z.

  Lemma cm_run_app a : forall s b, cm_run ne s (a ++ b) =
    ('(e1, s1) <- cm_run ne s a ;; '(e2, s2) <- cm_run ne s1 b ;; Ok (e1 ++ e2, s2)).
  Proof.
    induction a as [|[t k] a IH]; intros s b; cbn.
    - destruct (cm_run ne s b) as [[e2 s2]| |]; reflexivity.
    - destruct (cm_step ne t k s) as [[ev s1]| |]; cbn; try reflexivity. rewrite IH.
      destruct (cm_run ne s1 a) as [[e1 s2]| |]; cbn; try reflexivity.
      destruct (cm_run ne s2 b) as [[e2 s3]| |]; cbn; try reflexivity. now rewrite app_assoc.
  Qed.

  (** Where a thread is and what it has done since its current call began *)
  Definition at_pc (t : nat) (s : cmstate) (p : cmpc) (cur : list cmev) : Prop :=
    match p with
    | CmIdle => cur = []
    | CmIn k => cur = [VInv t k]
    | CmHold pu x c1 c2 => exists q, nth_error (cm_pushers s) q = Some pu /\ pu_id pu = true /\ cur = [VInv t (CmPush q x c1 c2)]
    | CmDone b => one_call t (map pu_handler (cm_pushers s)) (cur ++ [VRet t]) /\
                  (b = true -> exists q x c1 c2 r, cur = VInv t (CmPush q x c1 c2) :: r)
    end.
  Record CInv (g : agg) (evs : list cmev) (s : cmstate) : Prop := {
    ci_run : g_run ne g (map fst (done_to evs)) = Ok (map snd (done_to evs), cm_g s);
    ci_made : map pu_handler (cm_pushers s) = pushers_made evs;
    ci_none : forall t, nth_error (cm_thr s) t = None -> mine t evs = [];
    ci_thr : forall t p, nth_error (cm_thr s) t = Some p ->
      exists cs cur, mine t evs = concat cs ++ cur /\ Forall (one_call t (map pu_handler (cm_pushers s))) cs /\ at_pc t s p cur }.

  Lemma at_noinv t s p cur : at_pc t s p cur -> Forall no_inv (tl cur).
  Proof.
    destruct p as [|k|pu x c1 c2|b]; cbn; intros H.
    - subst. constructor.
    - subst. constructor.
    - destruct H as (q & _ & _ & ->). constructor.
    - destruct H as [H _]. destruct cur as [|e cur]; [constructor|]. cbn. inversion H; subst;
        repeat match goal with A : _ :: _ = cur ++ [VRet t] |- _ => destruct cur as [|? cur]; cbn in A; inversion A; subst; clear A
          | A : [] = cur ++ [VRet t] |- _ => destruct cur; discriminate
          | A : [] = ?c ++ [VRet t] |- _ => destruct c; discriminate end; repeat constructor.
  Qed.

  Lemma new_inv g n : CInv g [] (cm_new g n).
  Proof.
    constructor; cbn; try reflexivity. intros t p H.
    assert (p = CmIdle) as ->. { apply nth_error_In in H. now apply repeat_spec in H. }
    exists [], []. repeat split. constructor.
  Qed.

  (** The effect of one step on the record kept. *)
  Lemma step_inv g evs s t k ev s' : CInv g evs s -> cm_step ne t k s = Ok (ev, s') -> CInv g (evs ++ ev) s'.
  Proof.
    intros [R M N T] E. unfold cm_step in E. destruct (nth_error (cm_thr s) t) as [p|] eqn:P.
    2: { injection E as <- <-. rewrite app_nil_r. now constructor. }
    pose proof (T t p P) as (cs & cur & MT & FC & AT).
    assert (LT : (t < length (cm_thr s))%nat) by (apply nth_error_Some; congruence).
    (* everything but the thread that moves *)
    assert (GEN : forall ev g1 ps1 p1 cs1 cur1,
      Forall (fun e => ev_of e = t) ev ->
      g_run ne g (map fst (done_to (evs ++ ev))) = Ok (map snd (done_to (evs ++ ev)), g1) ->
      map pu_handler (cm_pushers s ++ ps1) = pushers_made (evs ++ ev) ->
      mine t (evs ++ ev) = concat cs1 ++ cur1 ->
      Forall (one_call t (map pu_handler (cm_pushers s ++ ps1))) cs1 ->
      at_pc t (mk_cmstate g1 (cm_pushers s ++ ps1) (set_nth t p1 (cm_thr s))) p1 cur1 ->
      CInv g (evs ++ ev) (mk_cmstate g1 (cm_pushers s ++ ps1) (set_nth t p1 (cm_thr s)))).
    { intros ev0 g1 ps1 p1 cs1 cur1 O G1 G2 G3 G4 G5.
      assert (OT : forall t', t' <> t -> mine t' (evs ++ ev0) = mine t' evs).
      { intros t' D. rewrite mine_app. rewrite <- app_nil_r. f_equal. clear -O D. induction O as [|e ev0 He O IH]; [reflexivity|].
        cbn. rewrite He. destruct (Nat.eqb_spec t t') as [->|_]; [contradiction|exact IH]. }
      constructor; cbn [cm_g cm_pushers cm_thr]; auto.
      - intros t' H. destruct (Nat.eq_dec t' t) as [->|D].
        + rewrite nth_error_set_nth_eq in H by exact LT. discriminate.
        + rewrite OT by exact D. apply N. rewrite nth_error_set_nth_neq in H by congruence. exact H.
      - intros t' p' H. destruct (Nat.eq_dec t' t) as [->|D].
        + rewrite nth_error_set_nth_eq in H by exact LT. injection H as <-. now exists cs1, cur1.
        + rewrite nth_error_set_nth_neq in H by congruence. destruct (T t' p' H) as (cs' & cur' & A & B & C).
          exists cs', cur'. rewrite OT by exact D. split; [exact A|]. split.
          * eapply Forall_impl; [|exact B]. intros l. rewrite map_app. apply one_call_mono.
          * destruct p' as [|k'|pu' x' d1 d2|b']; cbn in C |- *; auto.
            -- destruct C as (q & C1 & C2). exists q. split; [|exact C2]. rewrite nth_error_app1; [exact C1|]. apply nth_error_Some. congruence.
            -- destruct C as [C1 C2]. split; [|exact C2]. rewrite map_app. now apply one_call_mono. }
    assert (GEN0 : forall ev g1 p1 cs1 cur1,
      Forall (fun e => ev_of e = t) ev ->
      g_run ne g (map fst (done_to (evs ++ ev))) = Ok (map snd (done_to (evs ++ ev)), g1) ->
      map pu_handler (cm_pushers s) = pushers_made (evs ++ ev) ->
      mine t (evs ++ ev) = concat cs1 ++ cur1 ->
      Forall (one_call t (map pu_handler (cm_pushers s))) cs1 ->
      at_pc t (mk_cmstate g1 (cm_pushers s) (set_nth t p1 (cm_thr s))) p1 cur1 ->
      CInv g (evs ++ ev) (mk_cmstate g1 (cm_pushers s) (set_nth t p1 (cm_thr s)))).
    { intros ev0 g1 p1 cs1 cur1. specialize (GEN ev0 g1 [] p1 cs1 cur1). rewrite app_nil_r in GEN. exact GEN. }
    clear N.
    assert (TT : (t =? t)%nat = true) by apply Nat.eqb_refl.
    assert (RUN : forall op o g1, g_call ne op (cm_g s) = Ok (o, g1) ->
      g_run ne g (map fst (done_to (evs ++ [VDid t op o]))) = Ok (map snd (done_to (evs ++ [VDid t op o])), g1)).
    { intros op o g1 C. rewrite done_app, !map_app. cbn. rewrite MultiRun.g_run_app, R. cbn. rewrite C. reflexivity. }
    destruct p as [|[op|h|q x c1 c2]|pu x c1 c2|b].
    - injection E as <- <-. cbn in AT. subst cur. unfold cm_to. apply GEN0 with (cs1 := cs) (cur1 := [VInv t k]); cbn [at_pc]; auto.
      + rewrite done_app, app_nil_r. exact R.
      + rewrite made_app, app_nil_r. exact M.
      + rewrite mine_app, MT. cbn. rewrite TT, app_nil_r. reflexivity.
    - destruct (g_call ne op (cm_g s)) as [[o g1]| |] eqn:C; cbn in E; try discriminate. injection E as <- <-. cbn in AT. subst cur. unfold cm_to. cbn [cm_g cm_pushers cm_thr].
      apply GEN0 with (cs1 := cs) (cur1 := [VInv t (CmCall op); VDid t op o]); auto.
      + rewrite made_app, app_nil_r. exact M.
      + rewrite mine_app, MT. cbn. rewrite TT, <- app_assoc. reflexivity.
      + cbn. split; [constructor|discriminate].
    - injection E as <- <-. cbn in AT. subst cur. unfold cm_to. cbn [cm_g cm_pushers cm_thr].
      apply GEN with (cs1 := cs) (cur1 := [VInv t (CmMake h); VMade t h]); auto.
      + rewrite done_app, app_nil_r. exact R.
      + rewrite map_app, made_app, M. reflexivity.
      + rewrite mine_app, MT. cbn. rewrite TT, <- app_assoc. reflexivity.
      + eapply Forall_impl; [|exact FC]. intros l. rewrite map_app. apply one_call_mono.
      + cbn. split; [constructor|discriminate].
    - destruct (nth_error (cm_pushers s) q) as [pu|] eqn:Q.
      + injection E as <- <-. cbn in AT. subst cur. unfold cm_to. rewrite app_nil_r. rewrite <- (app_nil_r evs).
        destruct (pu_id pu && cm_token s) eqn:L.
        * apply andb_true_iff in L. destruct L as [L1 L2]. apply GEN0 with (cs1 := cs) (cur1 := [VInv t (CmPush q x c1 c2)]); rewrite ?app_nil_r; auto.
          cbn. exists q. auto.
        * apply GEN0 with (cs1 := cs) (cur1 := [VInv t (CmPush q x c1 c2)]); rewrite ?app_nil_r; auto. cbn. split; [constructor|discriminate].
      + injection E as <- <-. cbn in AT. subst cur. unfold cm_to. rewrite app_nil_r. rewrite <- (app_nil_r evs).
        apply GEN0 with (cs1 := cs) (cur1 := [VInv t (CmPush q x c1 c2)]); rewrite ?app_nil_r; auto. cbn. split; [constructor|discriminate].
    - destruct (g_call ne (GoPush x (pu_handler pu) c1 c2) (cm_g s)) as [[o g1]| |] eqn:C; cbn [bind] in E; try discriminate. injection E as <- <-.
      destruct AT as (q & Q1 & Q2 & ->). unfold cm_to. cbn [cm_g cm_pushers cm_thr].
      apply GEN0 with (cs1 := cs) (cur1 := [VInv t (CmPush q x c1 c2); VDid t (GoPush x (pu_handler pu) c1 c2) o]); auto.
      + rewrite made_app, app_nil_r. exact M.
      + rewrite mine_app, MT. cbn. rewrite TT, <- app_assoc. reflexivity.
      + cbn. split; [constructor|intros _; now exists q, x, c1, c2, [VDid t (GoPush x (pu_handler pu) c1 c2) o]].
        now rewrite nth_error_map, Q1.
    - injection E as <- <-. destruct AT as [A1 A2]. unfold cm_to. apply GEN0 with (cs1 := cs ++ [cur ++ [VRet t]]) (cur1 := []); cbn [at_pc]; auto.
      + rewrite done_app, app_nil_r. exact R.
      + rewrite made_app, app_nil_r. exact M.
      + rewrite mine_app, MT, concat_snoc. cbn. rewrite TT, app_nil_r, <- app_assoc. reflexivity.
      + apply Forall_app. split; [exact FC|]. constructor; [exact A1|constructor].
  Qed.

  Lemma run_inv g sched : forall evs s evs' s', CInv g evs s -> cm_run ne s sched = Ok (evs', s') -> CInv g (evs ++ evs') s'.
  Proof.
    induction sched as [|[t k] sched IH]; intros evs s evs' s' H E; cbn in E.
    - injection E as <- <-. now rewrite app_nil_r.
    - destruct (cm_step ne t k s) as [[ev s1]| |] eqn:ES; cbn in E; try discriminate.
      destruct (cm_run ne s1 sched) as [[evs1 s2]| |] eqn:ER; cbn in E; try discriminate. injection E as <- <-.
      rewrite app_assoc. eapply IH; [|exact ER]. eapply step_inv; eauto.
  Qed.

  Lemma one_order g n sched evs s : cm_run ne (cm_new g n) sched = Ok (evs, s) ->
    g_run ne g (map fst (done_to evs)) = Ok (map snd (done_to evs), cm_g s) /\
    forall t, exists cs cur, mine t evs = concat cs ++ cur /\ Forall (one_call t (pushers_made evs)) cs /\
      (cur = [] \/ exists rest, rest <> [] /\ one_call t (pushers_made evs) (cur ++ rest)).
  Proof.
    intros E. pose proof (run_inv g _ _ _ _ _ (new_inv g n) E) as [R M N T]. cbn [app] in R, M, N, T. split; [exact R|]. intros t.
    destruct (nth_error (cm_thr s) t) as [p|] eqn:P.
    - destruct (T t p P) as (cs & cur & A & B & C). exists cs, cur. rewrite <- M. split; [exact A|]. split; [exact B|].
      destruct p as [|[op|h|q x c1 c2]|pu x c1 c2|b]; cbn in C.
      + now left.
      + right. subst cur. exists [VDid t op (mk_sout None [] None); VRet t]. split; [discriminate|]. constructor.
      + right. subst cur. exists [VMade t h; VRet t]. split; [discriminate|]. constructor.
      + right. subst cur. exists [VRet t]. split; [discriminate|]. constructor.
      + right. destruct C as (q & _ & _ & ->). exists [VRet t]. split; [discriminate|]. constructor.
      + right. exists [VRet t]. split; [discriminate|apply C].
    - exists [], []. cbn. rewrite (N t P). auto.
  Qed.

  (** Nothing or one thing happens in a step. *)
  Lemma step_one t k s ev s' : cm_step ne t k s = Ok (ev, s') -> ev = [] \/ exists e, ev = [e].
  Proof.
    unfold cm_step. intros E.
    destruct (nth_error (cm_thr s) t) as [[|[op|h|q x c1 c2]|pu x c1 c2|b]|].
    - injection E as <- <-. eauto.
    - destruct (g_call ne op (cm_g s)) as [[o g1]| |]; cbn in E; try discriminate. injection E as <- <-. eauto.
    - injection E as <- <-. eauto.
    - destruct (nth_error (cm_pushers s) q); injection E as <- <-; eauto.
    - destruct (g_call ne _ (cm_g s)) as [[o g1]| |]; cbn in E; try discriminate. injection E as <- <-. eauto.
    - injection E as <- <-. eauto.
    - injection E as <- <-. eauto.
  Qed.
  (** The moment something happens *)
  Lemma run_at sched : forall s evs s' a e b, cm_run ne s sched = Ok (evs, s') -> evs = a ++ e :: b ->
    exists sd1 t k sd2 s1 s2, sched = sd1 ++ (t, k) :: sd2 /\ cm_run ne s sd1 = Ok (a, s1) /\ cm_step ne t k s1 = Ok ([e], s2) /\ cm_run ne s2 sd2 = Ok (b, s').
  Proof.
    induction sched as [|[t k] sched IH]; intros s evs s' a e b E H; cbn in E.
    - injection E as <- <-. destruct a; discriminate.
    - destruct (cm_step ne t k s) as [[ev s1]| |] eqn:ES; cbn in E; try discriminate.
      destruct (cm_run ne s1 sched) as [[evs1 s2]| |] eqn:ER; cbn in E; try discriminate. injection E as <- <-.
      destruct (step_one _ _ _ _ _ ES) as [->|[e0 ->]]; cbn in H.
      + destruct (IH _ _ _ _ _ _ ER H) as (sd1 & t1 & k1 & sd2 & sa & sb & -> & A & B & C).
        exists ((t, k) :: sd1), t1, k1, sd2, sa, sb. split; [reflexivity|]. split; [|auto]. cbn. rewrite ES. cbn. rewrite A. reflexivity.
      + destruct a as [|e1 a]; cbn in H.
        * injection H as -> ->. exists [], t, k, sched, s, s1. auto.
        * injection H as -> H. destruct (IH _ _ _ _ _ _ ER H) as (sd1 & t1 & k1 & sd2 & sa & sb & -> & A & B & C).
          exists ((t, k) :: sd1), t1, k1, sd2, sa, sb. split; [reflexivity|]. split; [|auto]. cbn. rewrite ES. cbn. rewrite A. reflexivity.
  Qed.

  (** When a call of a pusher takes effect the thread holds the token. *)
  Lemma did_who g evs s t0 k t op o s' p : CInv g evs s -> cm_step ne t0 k s = Ok ([VDid t op o], s') -> inside_pusher t p evs ->
    exists pu x c1 c2, nth_error (cm_thr s) t = Some (CmHold pu x c1 c2) /\ nth_error (cm_pushers s) p = Some pu /\ pu_id pu = true.
  Proof.
    intros [R M N T] E IN. unfold cm_step in E.
    destruct (nth_error (cm_thr s) t0) as [[|[op0|h|q x c1 c2]|pu x c1 c2|b]|] eqn:P; try discriminate.
    - destruct (g_call ne op0 (cm_g s)) as [[o1 g1]| |]; cbn in E; try discriminate. injection E as -> -> -> _.
      destruct (T t _ P) as (cs & cur & A & B & C). cbn in C. subst cur.
      destruct (inside_cur t p evs _ cs _ A B) as (x & c1 & c2 & r & X); [constructor|exact IN|discriminate].
    - destruct (nth_error (cm_pushers s) q); discriminate.
    - destruct (g_call ne _ (cm_g s)) as [[o1 g1]| |]; cbn in E; try discriminate. injection E as -> _ -> _.
      destruct (T t _ P) as (cs & cur & A & B & q & C1 & C2 & ->).
      destruct (inside_cur t p evs _ cs _ A B) as (x' & d1 & d2 & r & X); [constructor|exact IN|]. injection X as -> _ _ _ _.
      now exists pu, x, c1, c2.
  Qed.

  (** clear() drops the aggregator's own reference for good. *)
  Lemma cleared_id g evs s : CInv g evs s -> cleared evs -> g_id (cm_g s) = false.
  Proof.
    intros H (ts & c & IN). pose proof (ci_run _ _ _ H) as R. apply in_split in IN. destruct IN as (a & b & IN). rewrite IN in R.
    rewrite MultiRun.g_run_app in R. destruct (g_run ne g a) as [[o1 g1]| |]; cbn in R; try discriminate.
    destruct (g_clear c ts g1) as [g2| |] eqn:EC; cbn in R; try discriminate.
    destruct (g_run ne g2 b) as [[o2 g3]| |] eqn:E2; cbn in R; try discriminate. injection R as _ <-.
    eapply id_run; [exact E2|]. change (g_call ne (GoClear ts c) g1 = Ok (mk_sout None [] None, g2)) with ((g' <- g_clear c ts g1;; Ok (mk_sout None [] None, g')) = Ok (mk_sout None [] None, g2)).
    assert (X : g_call ne (GoClear ts c) g1 = Ok (mk_sout None [] None, g2)) by (cbn; now rewrite EC).
    apply id_call in X. exact X.
  Qed.

  Definition no_token (s : cmstate) : Prop := cm_token s = false.
  Lemma existsb_set {A} (f : A -> bool) i x l : existsb f l = false -> f x = false -> existsb f (set_nth i x l) = false.
  Proof.
    revert i. induction l as [|y l IH]; intros [|i] H F; cbn in *; auto; apply orb_false_iff in H; destruct H as [H1 H2]; apply orb_false_iff; auto.
  Qed.
  Lemma step_no_token t k s ev s' : no_token s -> cm_step ne t k s = Ok (ev, s') -> no_token s'.
  Proof.
    unfold no_token, cm_token, cm_step. intros H E. apply orb_false_iff in H. destruct H as [H1 H2]. apply orb_false_iff.
    destruct (nth_error (cm_thr s) t) as [[|[op|h|q x c1 c2]|pu x c1 c2|b]|] eqn:P.
    - injection E as <- <-. cbn. split; [exact H1|]. now apply existsb_set.
    - destruct (g_call ne op (cm_g s)) as [[o g1]| |] eqn:C; cbn in E; try discriminate. injection E as <- <-. cbn.
      split; [|now apply existsb_set]. apply id_call in C. rewrite C. destruct op; auto.
    - injection E as <- <-. cbn. split; [exact H1|]. now apply existsb_set.
    - assert (F : cm_token s = false) by (apply orb_false_iff; auto).
      destruct (nth_error (cm_pushers s) q) as [pu|]; injection E as <- <-; cbn; rewrite ?F, ?andb_false_r; split; auto; now apply existsb_set.
    - exfalso. apply nth_error_In in P. assert (existsb cm_holds (cm_thr s) = true); [|congruence]. apply existsb_exists. eauto.
    - injection E as <- <-. cbn. split; [exact H1|]. now apply existsb_set.
    - injection E as <- <-. auto.
  Qed.
  Lemma run_no_token sched : forall s evs s', no_token s -> cm_run ne s sched = Ok (evs, s') -> no_token s'.
  Proof.
    induction sched as [|[t k] sched IH]; intros s evs s' H E; cbn in E.
    - now injection E as _ <-.
    - destruct (cm_step ne t k s) as [[ev s1]| |] eqn:ES; cbn in E; try discriminate.
      destruct (cm_run ne s1 sched) as [[evs1 s2]| |] eqn:ER; cbn in E; try discriminate. injection E as _ <-.
      eapply IH; [|exact ER]. eapply step_no_token; eauto.
  Qed.

  (** A thread that holds the token is inside a pusher. *)
  Lemma holder_inside g evs s t p : CInv g evs s -> nth_error (cm_thr s) t = Some p -> cm_holds p = true -> exists q, inside_pusher t q evs.
  Proof.
    intros H P F. destruct (ci_thr _ _ _ H t p P) as (cs & cur & A & B & C). destruct p as [|k|pu x c1 c2|b]; try discriminate; cbn in F, C.
    - destruct C as (q & _ & _ & ->). exists q, (concat cs), x, c1, c2, []. split; [exact A|tauto].
    - subst b. destruct C as [C1 C2]. destruct (C2 eq_refl) as (q & x & c1 & c2 & r & ->).
      exists q, (concat cs), x, c1, c2, r. split; [exact A|]. cbn in C1. inversion C1 as [| |p0 x0 d1 d2 E0|p0 x0 d1 d2 h0 o0 NE E0]; subst.
      + destruct r as [|e r]; [tauto|]. destruct r; discriminate.
      + destruct r as [|e r]; [discriminate|]. cbn in *. match goal with X : _ :: _ = e :: _ |- _ => injection X as <- X end.
        destruct r as [|e r]; [|destruct r; discriminate]. intros [Y|[]]. discriminate.
  Qed.

  Lemma quiet g n sd1 evs1 s1 sd2 evs2 s2 : cm_run ne (cm_new g n) sd1 = Ok (evs1, s1) -> cleared evs1 -> nobody_pushing evs1 ->
    cm_run ne s1 sd2 = Ok (evs2, s2) ->
    forall a t op o b p, evs2 = a ++ VDid t op o :: b -> ~ inside_pusher t p (evs1 ++ a).
  Proof.
    intros E1 C Q E2 a t op o b p H IN. pose proof (run_inv g _ _ _ _ _ (new_inv g n) E1) as I1. cbn [app] in I1.
    assert (NT : no_token s1).
    { apply orb_false_iff. split; [now apply (cleared_id g evs1)|]. destruct (existsb cm_holds (cm_thr s1)) eqn:X; [exfalso|reflexivity].
      apply existsb_exists in X. destruct X as (pc & X1 & X2). apply In_nth_error in X1. destruct X1 as [t' X1].
      destruct (holder_inside g evs1 s1 t' pc I1 X1 X2) as [q Y]. exact (Q t' q Y). }
    destruct (run_at _ _ _ _ _ _ _ E2 H) as (sa & t0 & k & sb & s3 & s4 & -> & R1 & R2 & _).
    pose proof (run_inv g _ _ _ _ _ I1 R1) as I3. pose proof (run_no_token _ _ _ _ NT R1) as NT3.
    destruct (did_who g _ _ _ _ _ _ _ _ p I3 R2 IN) as (pu & x & c1 & c2 & P & _ & _).
    apply orb_false_iff in NT3. destruct NT3 as [_ NT3]. apply nth_error_In in P.
    assert (existsb cm_holds (cm_thr s3) = true); [|congruence]. apply existsb_exists. eauto.
  Qed.

  Lemma step_pushers t k s ev s' : cm_step ne t k s = Ok (ev, s') -> exists l, cm_pushers s' = cm_pushers s ++ l.
  Proof.
    unfold cm_step. intros E.
    destruct (nth_error (cm_thr s) t) as [[|[op|h|q x c1 c2]|pu x c1 c2|b]|].
    - injection E as <- <-. exists []. now rewrite app_nil_r.
    - destruct (g_call ne op (cm_g s)) as [[o g1]| |]; cbn in E; try discriminate. injection E as <- <-. exists []. now rewrite app_nil_r.
    - injection E as <- <-. cbn. eauto.
    - exists []. rewrite app_nil_r. destruct (nth_error (cm_pushers s) q); now injection E as <- <-.
    - destruct (g_call ne _ (cm_g s)) as [[o g1]| |]; cbn in E; try discriminate. injection E as <- <-. exists []. now rewrite app_nil_r.
    - injection E as <- <-. exists []. now rewrite app_nil_r.
    - injection E as <- <-. exists []. now rewrite app_nil_r.
  Qed.
  Lemma run_pushers sched : forall s evs s', cm_run ne s sched = Ok (evs, s') -> exists l, cm_pushers s' = cm_pushers s ++ l.
  Proof.
    induction sched as [|[t k] sched IH]; intros s evs s' E; cbn in E.
    - injection E as _ <-. exists []. now rewrite app_nil_r.
    - destruct (cm_step ne t k s) as [[ev s1]| |] eqn:ES; cbn in E; try discriminate.
      destruct (cm_run ne s1 sched) as [[evs1 s2]| |] eqn:ER; cbn in E; try discriminate. injection E as _ <-.
      destruct (step_pushers _ _ _ _ _ ES) as [l A]. destruct (IH _ _ _ ER) as [l' B]. exists (l ++ l'). rewrite B, A. now rewrite app_assoc.
  Qed.

  Lemma made_after g n sched evs s a t h b t' op o c : cm_run ne (cm_new g n) sched = Ok (evs, s) ->
    evs = (a ++ VMade t h :: b) ++ VDid t' op o :: c -> cleared a -> ~ inside_pusher t' (length (pushers_made a)) (a ++ VMade t h :: b).
  Proof.
    intros E H C IN. destruct (run_at _ _ _ _ _ _ _ E H) as (sa & t0 & k & sb & s1 & s2 & -> & R1 & R2 & _).
    pose proof (run_inv g _ _ _ _ _ (new_inv g n) R1) as I1. cbn [app] in I1.
    destruct (did_who g _ _ _ _ _ _ _ _ _ I1 R2 IN) as (pu & x & c1 & c2 & _ & P1 & P2).
    destruct (run_at _ _ _ _ _ _ _ R1 eq_refl) as (sc & t1 & k1 & sd & s3 & s4 & -> & Q1 & Q2 & Q3).
    pose proof (run_inv g _ _ _ _ _ (new_inv g n) Q1) as I3. cbn [app] in I3. pose proof (cleared_id g _ _ I3 C) as F.
    assert (PS : cm_pushers s4 = cm_pushers s3 ++ [mk_pusher false h]).
    { unfold cm_step in Q2. destruct (nth_error (cm_thr s3) t1) as [[|[op1|h1|q1 x1 d1 d2]|pu1 x1 d1 d2|b1]|]; try discriminate.
      - destruct (g_call ne op1 (cm_g s3)) as [[o1 g1]| |]; cbn in Q2; discriminate.
      - injection Q2 as -> -> <-. cbn. unfold g_create_pusher. now rewrite F.
      - destruct (nth_error (cm_pushers s3) q1); discriminate.
      - destruct (g_call ne _ (cm_g s3)) as [[o1 g1]| |]; cbn in Q2; discriminate. }
    destruct (run_pushers _ _ _ _ Q3) as [l L]. rewrite L, PS in P1. rewrite <- (ci_made _ _ _ I3), map_length, <- app_assoc in P1.
    rewrite nth_error_app2, Nat.sub_diag in P1 by lia. cbn in P1. injection P1 as <-. discriminate.
  Qed.

  Lemma other_step t1 k s ev s1 t : cm_step ne t1 k s = Ok (ev, s1) -> t1 <> t -> mine t ev = [] /\ nth_error (cm_thr s1) t = nth_error (cm_thr s) t.
  Proof.
    intros E D. assert (F : (t1 =? t)%nat = false) by now apply Nat.eqb_neq. unfold cm_step in E.
    destruct (nth_error (cm_thr s) t1) as [[|[op|h|q x c1 c2]|pu x c1 c2|b]|].
    - injection E as <- <-. cbn. rewrite F, nth_error_set_nth_neq by exact D. auto.
    - destruct (g_call ne op (cm_g s)) as [[o g1]| |]; cbn in E; try discriminate. injection E as <- <-. cbn. rewrite F, nth_error_set_nth_neq by exact D. auto.
    - injection E as <- <-. cbn. rewrite F, nth_error_set_nth_neq by exact D. auto.
    - destruct (nth_error (cm_pushers s) q); injection E as <- <-; cbn; rewrite nth_error_set_nth_neq by exact D; auto.
    - destruct (g_call ne _ (cm_g s)) as [[o g1]| |]; cbn in E; try discriminate. injection E as <- <-. cbn. rewrite F, nth_error_set_nth_neq by exact D. auto.
    - injection E as <- <-. cbn. rewrite F, nth_error_set_nth_neq by exact D. auto.
    - injection E as <- <-. auto.
  Qed.
  Lemma step_id t k s ev s1 : cm_step ne t k s = Ok (ev, s1) -> ~ cleared ev -> g_id (cm_g s) = true -> g_id (cm_g s1) = true.
  Proof.
    intros E NC I2. unfold cm_step in E.
    destruct (nth_error (cm_thr s) t) as [[|[op|h|q x c1 c2]|pu x c1 c2|b]|].
    - now injection E as <- <-.
    - destruct (g_call ne op (cm_g s)) as [[o g1]| |] eqn:C; cbn in E; try discriminate. injection E as <- <-. cbn. apply id_call in C. rewrite C.
      destruct op; try exact I2. exfalso. apply NC. eexists _, _. now left.
    - now injection E as <- <-.
    - destruct (nth_error (cm_pushers s) q); now injection E as <- <-.
    - destruct (g_call ne _ (cm_g s)) as [[o g1]| |] eqn:C; cbn in E; try discriminate. injection E as <- <-. cbn. apply id_call in C. now rewrite C.
    - now injection E as <- <-.
    - now injection E as <- <-.
  Qed.
  (** Without clear() every pusher has the token. *)
  Lemma run_ids sched : forall s evs s', cm_run ne s sched = Ok (evs, s') -> ~ cleared evs -> g_id (cm_g s) = true ->
    Forall (fun p => pu_id p = true) (cm_pushers s) -> g_id (cm_g s') = true /\ Forall (fun p => pu_id p = true) (cm_pushers s').
  Proof.
    induction sched as [|[t k] sched IH]; intros s evs s' E NC I1 F; cbn in E.
    - injection E as _ <-. auto.
    - destruct (cm_step ne t k s) as [[ev s1]| |] eqn:ES; cbn in E; try discriminate.
      destruct (cm_run ne s1 sched) as [[evs1 s2]| |] eqn:ER; cbn in E; try discriminate. injection E as <- <-.
      assert (NC0 : ~ cleared ev). { intros (ts & c & X). apply NC. exists ts, c. rewrite done_app, map_app. apply in_or_app. now left. }
      assert (NC1 : ~ cleared evs1). { intros (ts & c & X). apply NC. exists ts, c. rewrite done_app, map_app. apply in_or_app. now right. }
      eapply IH; [exact ER|exact NC1| |].
      + eapply step_id; eauto.
      + unfold cm_step in ES. destruct (nth_error (cm_thr s) t) as [[|[op|h|q x c1 c2]|pu x c1 c2|b]|].
        * now injection ES as <- <-.
        * destruct (g_call ne op (cm_g s)) as [[o g1]| |]; cbn in ES; try discriminate. now injection ES as <- <-.
        * injection ES as <- <-. cbn. apply Forall_app. split; [exact F|]. constructor; [exact I1|constructor].
        * destruct (nth_error (cm_pushers s) q); now injection ES as <- <-.
        * destruct (g_call ne _ (cm_g s)) as [[o g1]| |]; cbn in ES; try discriminate. now injection ES as <- <-.
        * now injection ES as <- <-.
        * now injection ES as <- <-.
  Qed.

  (** A thread that holds the token will push before it does anything else. *)
  Lemma hold_push t pu x c1 c2 sched : forall s evs s', nth_error (cm_thr s) t = Some (CmHold pu x c1 c2) -> cm_run ne s sched = Ok (evs, s') ->
    mine t evs = [] \/ exists o r, mine t evs = VDid t (GoPush x (pu_handler pu) c1 c2) o :: r.
  Proof.
    induction sched as [|[t1 k] sched IH]; intros s evs s' P E; cbn in E.
    - injection E as <- _. now left.
    - destruct (cm_step ne t1 k s) as [[ev s1]| |] eqn:ES; cbn in E; try discriminate.
      destruct (cm_run ne s1 sched) as [[evs1 s2]| |] eqn:ER; cbn in E; try discriminate. injection E as <- <-. rewrite mine_app.
      destruct (Nat.eq_dec t1 t) as [->|D].
      + unfold cm_step in ES. rewrite P in ES. destruct (g_call ne _ (cm_g s)) as [[o1 g1]| |]; cbn in ES; try discriminate.
        injection ES as <- <-. right. exists o1, (mine t evs1). cbn. now rewrite Nat.eqb_refl.
      + destruct (other_step t1 k s ev s1 t ES D) as [A B]. rewrite A. cbn. eapply IH; [|exact ER]. rewrite B. exact P.
  Qed.
  Lemma in_push t q pu x c1 c2 sched : forall s evs s', nth_error (cm_thr s) t = Some (CmIn (CmPush q x c1 c2)) ->
    nth_error (cm_pushers s) q = Some pu -> pu_id pu = true -> g_id (cm_g s) = true ->
    cm_run ne s sched = Ok (evs, s') -> ~ cleared evs ->
    mine t evs = [] \/ exists o r, mine t evs = VDid t (GoPush x (pu_handler pu) c1 c2) o :: r.
  Proof.
    induction sched as [|[t1 k] sched IH]; intros s evs s' P Q I1 I2 E NC; cbn in E.
    - injection E as <- _. now left.
    - destruct (cm_step ne t1 k s) as [[ev s1]| |] eqn:ES; cbn in E; try discriminate.
      destruct (cm_run ne s1 sched) as [[evs1 s2]| |] eqn:ER; cbn in E; try discriminate. injection E as <- <-. rewrite mine_app.
      assert (NC1 : ~ cleared evs1).
      { intros (ts & c & X). apply NC. exists ts, c. rewrite done_app, map_app. apply in_or_app. now right. }
      destruct (Nat.eq_dec t1 t) as [->|D].
      + unfold cm_step in ES. rewrite P, Q, I1 in ES. unfold cm_token in ES. rewrite I2 in ES. cbn in ES. injection ES as <- <-. cbn.
        eapply hold_push; [|exact ER]. cbn. apply nth_error_set_nth_eq. apply nth_error_Some. congruence.
      + destruct (other_step t1 k s ev s1 t ES D) as [A B]. rewrite A. cbn. eapply IH; [| | | |exact ER|exact NC1].
        * rewrite B. exact P.
        * destruct (step_pushers _ _ _ _ _ ES) as [l L]. rewrite L, nth_error_app1; [exact Q|]. apply nth_error_Some. congruence.
        * exact I1.
        * assert (NC0 : ~ cleared ev).
          { intros (ts & c & X). apply NC. exists ts, c. rewrite done_app, map_app. apply in_or_app. now left. }
          eapply step_id; eauto.
  Qed.

  Lemma live g n sched evs s a t p x c1 c2 b : g_id g = true -> cm_run ne (cm_new g n) sched = Ok (evs, s) -> ~ cleared evs ->
    evs = a ++ VInv t (CmPush p x c1 c2) :: b -> (p < length (pushers_made a))%nat ->
    mine t b = [] \/ exists h o r, nth_error (pushers_made a) p = Some h /\ mine t b = VDid t (GoPush x h c1 c2) o :: r.
  Proof.
    intros I0 E NC H L. destruct (run_at _ _ _ _ _ _ _ E H) as (sa & t1 & k & sb & s1 & s2 & -> & R1 & R2 & R3).
    pose proof (run_inv g _ _ _ _ _ (new_inv g n) R1) as I1. cbn [app] in I1.
    assert (NCa : ~ cleared a). { intros (ts & c & X). apply NC. exists ts, c. rewrite H, done_app, map_app. apply in_or_app. now left. }
    assert (NCb : ~ cleared b). { intros (ts & c & X). apply NC. exists ts, c. rewrite H, done_app, map_app. apply in_or_app. right. exact X. }
    destruct (run_ids _ _ _ _ R1 NCa I0 (Forall_nil _)) as [G1 F1].
    rewrite <- (ci_made _ _ _ I1) in L |- *. rewrite map_length in L.
    destruct (nth_error (cm_pushers s1) p) as [pu|] eqn:Q; [|apply nth_error_None in Q; lia].
    assert (PI : pu_id pu = true). { rewrite Forall_forall in F1. apply F1. now apply nth_error_In in Q. }
    assert (ST : nth_error (cm_thr s2) t = Some (CmIn (CmPush p x c1 c2)) /\ cm_pushers s2 = cm_pushers s1 /\ cm_g s2 = cm_g s1).
    { unfold cm_step in R2. destruct (nth_error (cm_thr s1) t1) as [[|[op1|h1|q1 x1 d1 d2]|pu1 x1 d1 d2|b1]|] eqn:P; try discriminate.
      - injection R2 as -> -> <-. cbn. split; [|auto]. apply nth_error_set_nth_eq. apply nth_error_Some. congruence.
      - destruct (g_call ne op1 (cm_g s1)) as [[o1 g1]| |]; cbn in R2; discriminate.
      - destruct (nth_error (cm_pushers s1) q1); discriminate.
      - destruct (g_call ne _ (cm_g s1)) as [[o1 g1]| |]; cbn in R2; discriminate. }
    destruct ST as (S1 & S2 & S3).
    destruct (in_push t p pu x c1 c2 sb s2 b s S1) as [X|(o & r & X)]; auto; try congruence.
    right. exists (pu_handler pu), o, r. split; [|exact X]. now rewrite nth_error_map, Q.
  Qed.

  (** Thread 1 calls a pusher again and again while thread 0 holds the token. *)
  Lemma go_on h x0 d1 d2 l : forall outs g g',
    g_run ne g (map (fun i => GoPush (fst (fst i)) h (snd (fst i)) (snd i)) l) = Ok (outs, g') ->
    exists sd, cm_run ne (mk_cmstate g [mk_pusher true h] [CmHold (mk_pusher true h) x0 d1 d2; CmIdle]) sd =
        Ok (flat_map (fun i => [VInv 1 (CmPush 0 (fst (fst (fst i))) (snd (fst (fst i))) (snd (fst i)));
                                VDid 1 (GoPush (fst (fst (fst i))) h (snd (fst (fst i))) (snd (fst i))) (snd i); VRet 1]) (combine l outs),
            mk_cmstate g' [mk_pusher true h] [CmHold (mk_pusher true h) x0 d1 d2; CmIdle]).
  Proof.
    induction l as [|[[x c1] c2] l IH]; intros outs g g' E; cbn [map g_run fst snd] in E.
    - injection E as <- <-. now exists [].
    - destruct (g_call ne (GoPush x h c1 c2) g) as [[o g1]| |] eqn:C; cbn [bind] in E; try discriminate.
      destruct (g_run ne g1 _) as [[os g2]| |] eqn:R; cbn [bind] in E; try discriminate. injection E as <- <-.
      destruct (IH _ _ _ R) as [sd H]. set (k := CmPush 0 x c1 c2).
      exists ((1%nat, k) :: (1%nat, k) :: (1%nat, k) :: (1%nat, k) :: sd).
      cbn [cm_run cm_step cm_thr nth_error bind cm_to set_nth cm_g cm_pushers pu_id pu_handler cm_token existsb cm_holds andb orb k].
      unfold cm_token, cm_to. cbn [cm_thr cm_g cm_pushers set_nth existsb cm_holds orb]. rewrite ?orb_true_r. cbn [orb andb cm_run cm_step cm_thr nth_error bind cm_to set_nth cm_g cm_pushers pu_handler].
      rewrite C. cbn [cm_run cm_step cm_thr nth_error bind cm_to set_nth cm_g cm_pushers pu_handler]. unfold cm_to. cbn [set_nth cm_g cm_pushers cm_thr]. rewrite H. reflexivity.
  Qed.
  Lemma outlives g ts c g1 h x0 d1 d2 l outs g2 : g_id g = true -> g_clear c ts g = Ok g1 ->
    g_run ne g1 (map (fun i => GoPush (fst (fst i)) h (snd (fst i)) (snd i)) l) = Ok (outs, g2) ->
    exists sched s, cm_g s = g2 /\ cm_run ne (cm_new g 2) sched =
      Ok ([VInv 0 (CmMake h); VMade 0 h; VRet 0; VInv 0 (CmPush 0 x0 d1 d2);
           VInv 1 (CmCall (GoClear ts c)); VDid 1 (GoClear ts c) (mk_sout None [] None); VRet 1] ++
          flat_map (fun i => [VInv 1 (CmPush 0 (fst (fst (fst i))) (snd (fst (fst i))) (snd (fst i)));
                              VDid 1 (GoPush (fst (fst (fst i))) h (snd (fst (fst i))) (snd (fst i))) (snd i); VRet 1]) (combine l outs), s).
  Proof.
    intros I0 C R. destruct (go_on h x0 d1 d2 l outs g1 g2 R) as [sd H].
    set (k1 := CmMake h). set (k2 := CmPush 0 x0 d1 d2). set (k3 := CmCall (GoClear ts c)).
    exists ((0%nat, k1) :: (0%nat, k1) :: (0%nat, k1) :: (0%nat, k2) :: (0%nat, k2) :: (1%nat, k3) :: (1%nat, k3) :: (1%nat, k3) :: sd).
    exists (mk_cmstate g2 [mk_pusher true h] [CmHold (mk_pusher true h) x0 d1 d2; CmIdle]). split; [reflexivity|].
    destruct g as [sp out en li id]. cbn in I0. subst id.
    unfold cm_new, k1, k2, k3. cbn -[g_clear cm_run].
    match goal with |- cm_run ne ?s0 (?a :: ?b :: ?c :: ?d :: ?e :: ?f :: ?g :: ?h :: sd) = _ =>
      change (a :: b :: c :: d :: e :: f :: g :: h :: sd) with ([a; b; c; d; e; f; g; h] ++ sd) end.
    rewrite cm_run_app. cbn -[g_clear cm_run]. cbn -[g_clear]. rewrite C. cbn. unfold cm_to, g_create_pusher. cbn. rewrite H. reflexivity.
  Qed.
End Inv.
