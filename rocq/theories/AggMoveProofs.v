(** Proofs about moved aggregators. *)
From Coq Require Import ZArith List Bool Arith Lia.
From Verif Require Import Base ModelTypes ModelAvg ModelReducer SpecReducer ListFacts ModelSeparator SpecSeparator ModelAggregator SpecAggregator AggFinal
  ModelAggMove SpecAggMove.
Import ListNotations.

Section Proofs.
  Variable ne : nat -> list Z -> list Z.

  Lemma am_run_snoc : forall ops s outs s1 op r s2, am_run ne s ops = Ok (outs, s1) -> am_do ne op s1 = Ok (r, s2) ->
    am_run ne s (ops ++ [op]) = Ok (outs ++ [r], s2).
  Proof.
    induction ops as [|o ops IH]; intros s outs s1 op r s2 H D; cbn [app am_run] in *.
    - injection H as <- <-. cbn. rewrite D. reflexivity.
    - destruct (am_do ne o s) as [[r0 s0]| |]; cbn [bind] in *; try discriminate.
      destruct (am_run ne s0 ops) as [[rs s3]| |] eqn:E; cbn [bind] in *; try discriminate. injection H as <- <-.
      rewrite (IH _ _ _ _ _ _ E D). reflexivity.
  Qed.
  Lemma g_run_snoc : forall ops g outs g1 op r g2, g_run ne g ops = Ok (outs, g1) -> g_call ne op g1 = Ok (r, g2) ->
    g_run ne g (ops ++ [op]) = Ok (outs ++ [r], g2).
  Proof.
    induction ops as [|o ops IH]; intros g outs g1 op r g2 H D; cbn [app g_run] in *.
    - injection H as <- <-. cbn. rewrite D. reflexivity.
    - destruct (g_call ne o g) as [[r0 s0]| |]; cbn [bind] in *; try discriminate.
      destruct (g_run ne s0 ops) as [[rs s3]| |] eqn:E; cbn [bind] in *; try discriminate. injection H as <- <-.
      rewrite (IH _ _ _ _ _ _ E D). reflexivity.
  Qed.

  Definition whole_run (v : avar) (y : story) : Prop :=
    let '(o, c, rnd, ts) := sy_born y in
    exists g0 outs, agg_new o c rnd ts = Ok g0 /\ g_run ne g0 (map fst (sy_calls y)) = Ok (outs, av_g v) /\ Forall2 seen (map snd (sy_calls y)) outs.
  Definition orel (v : option avar) (y : option story) : Prop :=
    match v, y with
    | None, None => True
    | Some v, Some y => av_tok v = mark y /\ g_id (av_g v) = sy_whole y && clear_free (sy_calls y) /\ (sy_whole y = true -> whole_run v y)
    | _, _ => False
    end.
  Definition AMInv (s : aprog) (t : stories) : Prop :=
    Forall2 orel (pr_vars s) (ss_of t) /\ ss_push t = map (fun q => (ap_var q, ap_tok q, ap_h q)) (pr_push s) /\
    (forall i y, story_at i t = Some y -> sy_first y < length (ss_of t)) /\
    (forall i j y z, story_at i t = Some y -> story_at j t = Some z -> sy_whole y = true -> sy_whole z = true -> sy_first y = sy_first z -> i = j).

  Lemma F2_len {A B} (R : A -> B -> Prop) l m : Forall2 R l m -> length l = length m.
  Proof. induction 1; cbn; congruence. Qed.
  Lemma F2_set {A B} (R : A -> B -> Prop) : forall l m i x y, Forall2 R l m -> R x y -> Forall2 R (set_nth i x l) (set_nth i y m).
  Proof. intros l m i x y H. revert i. induction H as [|a b l m Rab H IH]; intros i Rxy; [destruct i; constructor|]. destruct i as [|i]; cbn [set_nth]; constructor; auto. Qed.
  Lemma F2_nth {A B} (R : A -> B -> Prop) : forall l m i x, Forall2 R l m -> nth_error l i = Some x -> exists y, nth_error m i = Some y /\ R x y.
  Proof. intros l m i x H. revert i. induction H as [|a b l m Rab H IH]; intros [|i] E; cbn in E; try discriminate; [injection E as <-; exists b; auto|apply IH; exact E]. Qed.
  Lemma F2_nth' {A B} (R : A -> B -> Prop) : forall l m i y, Forall2 R l m -> nth_error m i = Some y -> exists x, nth_error l i = Some x /\ R x y.
  Proof. intros l m i y H. revert i. induction H as [|a b l m Rab H IH]; intros [|i] E; cbn in E; try discriminate; [injection E as <-; exists a; auto|apply IH; exact E]. Qed.
  Lemma F2_snoc {A B} (R : A -> B -> Prop) l m x y : Forall2 R l m -> R x y -> Forall2 R (l ++ [x]) (m ++ [y]).
  Proof. intros H r. apply Forall2_app; [exact H|]. constructor; [exact r|constructor]. Qed.
  Lemma nth_set_cases {A} (l : list A) i x j : nth_error (set_nth i x l) j = if Nat.eq_dec i j then match nth_error l i with Some _ => Some x | None => None end else nth_error l j.
  Proof.
    destruct (Nat.eq_dec i j) as [<-|N]; [|apply nth_error_set_nth_neq; exact N].
    destruct (nth_error l i) eqn:E.
    - apply nth_error_set_nth_eq. apply nth_error_Some. congruence.
    - apply nth_error_None. rewrite set_nth_length. apply nth_error_None. exact E.
  Qed.
  Lemma nth_snoc_cases {A} (l : list A) x j : nth_error (l ++ [x]) j = if lt_dec j (length l) then nth_error l j else if Nat.eq_dec j (length l) then Some x else None.
  Proof.
    destruct (lt_dec j (length l)) as [L|L]; [apply nth_error_app1; exact L|]. rewrite nth_error_app2 by lia.
    destruct (Nat.eq_dec j (length l)) as [->|N]; [rewrite Nat.sub_diag; reflexivity|].
    apply nth_error_None. cbn. lia.
  Qed.
  Lemma at_story : forall i t y, nth_error (ss_of t) i = Some (Some y) <-> story_at i t = Some y.
  Proof. intros i t y. unfold story_at. destruct (nth_error (ss_of t) i) as [[z|]|]; split; congruence. Qed.

  (** a call on object [i] *)
  Lemma heard_inv : forall s t i v c o g r, AMInv s t -> nth_error (pr_vars s) i = Some (Some v) -> g_call ne c (av_g v) = Ok (o, g) -> seen r o ->
    AMInv (mk_aprog (set_nth i (Some (av_after g v)) (pr_vars s)) (pr_push s)) (heard i c r t).
  Proof.
    intros s t i v c o g r (V & P & F & W) Hv C S. destruct (F2_nth _ _ _ _ _ V Hv) as (y & Hy & R). destruct y as [y|]; [|contradiction]. cbn [orel] in R. destruct R as (R1 & R2 & R3).
    pose proof (id_call ne _ _ _ _ C) as ID. unfold heard. rewrite (proj1 (at_story _ _ _) Hy). cbn [ss_of ss_push pr_vars pr_push].
    set (y' := mk_story (sy_first y) (sy_born y) (sy_calls y ++ [(c, r)]) (sy_whole y)).
    assert (B : g_id g = sy_whole y && clear_free (sy_calls y ++ [(c, r)])).
    { rewrite ID. unfold clear_free. rewrite forallb_app. cbn [forallb fst]. unfold clear_free in R2. rewrite R2. destruct c; rewrite ?andb_true_r, ?andb_false_r; reflexivity. }
    split; [|split; [exact P|split]].
    - cbn [pr_vars ss_of]. apply F2_set; [exact V|]. cbn [orel]. split; [|split].
      + unfold av_after. cbn [av_tok]. rewrite B. unfold mark. cbn [sy_whole sy_calls sy_first y']. rewrite R1. unfold mark. unfold clear_free. rewrite forallb_app. cbn [forallb fst].
        destruct (sy_whole y); cbn [andb]; [|reflexivity]. destruct (forallb _ (sy_calls y)); cbn [andb]; [|reflexivity]. destruct c; reflexivity.
      + exact B.
      + intros T. specialize (R3 T). unfold whole_run in *. cbn [sy_born sy_calls y'] in *. destruct (sy_born y) as [[[oo cc] rr] tt].
        destruct R3 as (g0 & outs & N & RU & SE). exists g0, (outs ++ [o]). split; [exact N|]. rewrite !map_app. cbn [map fst snd]. split; [eapply g_run_snoc; eauto|]. apply F2_snoc; assumption.
    - intros j z Hz. apply at_story in Hz. cbn [ss_of] in Hz |- *. rewrite set_nth_length. rewrite nth_set_cases in Hz. destruct (Nat.eq_dec i j) as [<-|N].
      + rewrite Hy in Hz. injection Hz as <-. cbn [sy_first y']. apply (F i). apply at_story. exact Hy.
      + apply (F j). apply at_story. exact Hz.
    - intros j k z u Hz Hu Wz Wu E.
      assert (G : forall j z, story_at j (mk_stories (set_nth i (Some y') (ss_of t)) (ss_push t)) = Some z -> exists z', story_at j t = Some z' /\ sy_first z' = sy_first z /\ sy_whole z' = sy_whole z).
      { intros a b H. apply at_story in H. cbn [ss_of] in H. rewrite nth_set_cases in H. destruct (Nat.eq_dec i a) as [<-|N].
        - rewrite Hy in H. injection H as <-. exists y. split; [apply at_story; exact Hy|]. split; reflexivity.
        - exists b. split; [apply at_story; exact H|]. auto. }
      destruct (G _ _ Hz) as (z' & A1 & A2 & A3). destruct (G _ _ Hu) as (u' & B1 & B2 & B3). apply (W j k z' u'); congruence.
  Qed.

  Lemma tok_alive_mark : forall s t k, AMInv s t -> (tok_alive k s = true <-> exists i y, story_at i t = Some y /\ mark y = Some k).
  Proof.
    intros s t k (V & _). unfold tok_alive. rewrite existsb_exists. split.
    - intros (v & Iv & E). destruct v as [v|]; [|discriminate]. destruct (av_tok v) as [k'|] eqn:T; [|discriminate]. apply Nat.eqb_eq in E. subst k'.
      apply In_nth_error in Iv. destruct Iv as (i & Hi). destruct (F2_nth _ _ _ _ _ V Hi) as (y & Hy & R). destruct y as [y|]; [|contradiction]. destruct R as (R1 & _).
      exists i, y. split; [apply at_story; exact Hy|congruence].
    - intros (i & y & Hy & M). apply at_story in Hy. destruct (F2_nth' _ _ _ _ _ V Hy) as (v & Hv & R). destruct v as [v|]; [|contradiction]. destruct R as (R1 & _).
      exists (Some v). split; [eapply nth_error_In; exact Hv|]. rewrite R1, M. apply Nat.eqb_refl.
  Qed.

  Lemma step_inv : forall op s t r s', AMInv s t -> am_do ne op s = Ok (r, s') -> AMInv s' (narrate t (op, r)).
  Proof.
    intros op s t r s' I D. pose proof I as (V & P & F & W). pose proof (F2_len _ _ _ V) as L.
    destruct op as [o c rnd ts|j|i c|i h|p x c1 c2|i]; cbn [am_do] in D.
    - destruct (agg_new o c rnd ts) as [g| |] eqn:N; cbn [bind] in D; try discriminate. injection D as <- <-. cbn [narrate].
      assert (Gid : g_id g = true). { unfold agg_new in N. destruct (sep_new _ _ _ _); cbn [bind] in N; try discriminate. injection N as <-. reflexivity. }
      split; [|split; [exact P|split]]; cbn [pr_vars ss_of].
      + apply F2_snoc; [exact V|]. cbn [orel]. split; [cbn; rewrite L; reflexivity|]. split; [exact Gid|]. intros _. cbn. exists g, []. split; [exact N|]. split; [reflexivity|constructor].
      + intros j z Hz. apply at_story in Hz. cbn [ss_of] in *. rewrite app_length. cbn. rewrite nth_snoc_cases in Hz. destruct (lt_dec j (length (ss_of t))).
        * pose proof (F j z ltac:(apply at_story; exact Hz)). lia.
        * destruct (Nat.eq_dec j (length (ss_of t))); [|discriminate]. injection Hz as <-. cbn. lia.
      + intros j k z u Hz Hu Wz Wu E. apply at_story in Hz, Hu. cbn [ss_of] in *. rewrite nth_snoc_cases in Hz, Hu.
        destruct (lt_dec j (length (ss_of t))), (lt_dec k (length (ss_of t))).
        * apply (W j k z u); auto; apply at_story; assumption.
        * destruct (Nat.eq_dec k (length (ss_of t))); [|discriminate]. injection Hu as <-. cbn in E. pose proof (F j z ltac:(apply at_story; exact Hz)). lia.
        * destruct (Nat.eq_dec j (length (ss_of t))); [|discriminate]. injection Hz as <-. cbn in E. pose proof (F k u ltac:(apply at_story; exact Hu)). lia.
        * destruct (Nat.eq_dec j (length (ss_of t))); [|discriminate]. destruct (Nat.eq_dec k (length (ss_of t))); [|discriminate]. congruence.
    - unfold av_at in D. destruct (nth_error (pr_vars s) j) as [[v|]|] eqn:Hv; cbn [bind] in D; try discriminate. injection D as <- <-. cbn [narrate].
      destruct (F2_nth _ _ _ _ _ V Hv) as (y & Hy & R). destruct y as [y|]; [|contradiction]. rewrite (proj1 (at_story _ _ _) Hy). pose proof R as (R1 & R2 & R3).
      set (y' := mk_story (sy_first y) (sy_born y) (sy_calls y) false).
      assert (C : forall i z, story_at i (mk_stories (set_nth j (Some y') (ss_of t) ++ [Some y]) (ss_push t)) = Some z ->
        (i < length (ss_of t) /\ i <> j /\ story_at i t = Some z) \/ (i = j /\ z = y') \/ (i = length (ss_of t) /\ z = y)).
      { intros i z H. apply at_story in H. cbn [ss_of] in H. rewrite nth_snoc_cases in H. rewrite set_nth_length in H. destruct (lt_dec i (length (ss_of t))).
        - rewrite nth_set_cases in H. destruct (Nat.eq_dec j i) as [<-|N]; [rewrite Hy in H; injection H as <-; auto|]. left. split; [assumption|]. split; [auto|]. apply at_story. exact H.
        - destruct (Nat.eq_dec i (length (ss_of t))); [|discriminate]. injection H as <-. auto. }
      pose proof (F j y ltac:(apply at_story; exact Hy)) as Fy.
      split; [|split; [exact P|split]]; cbn [pr_vars ss_of].
      + apply F2_snoc; [|exact R]. apply F2_set; [exact V|]. cbn [orel]. split; [reflexivity|]. split; [reflexivity|]. intros T. discriminate.
      + intros i z Hz. cbn [ss_of]. rewrite app_length, set_nth_length. cbn. destruct (C _ _ Hz) as [(A1 & A2 & A3)|[(-> & ->)|(-> & ->)]]; [pose proof (F i z A3); lia|cbn; lia|lia].
      + intros i k z u Hz Hu Wz Wu E. destruct (C _ _ Hz) as [(A1 & A2 & A3)|[(-> & ->)|(-> & ->)]]; [|discriminate|]; (destruct (C _ _ Hu) as [(B1 & B2 & B3)|[(-> & ->)|(-> & ->)]]; [|discriminate|]).
        * apply (W i k z u); auto.
        * exfalso. apply A2. apply (W i j z y); auto. apply at_story. exact Hy.
        * exfalso. apply B2. symmetry. apply (W j k y u); auto. apply at_story. exact Hy.
        * reflexivity.
    - unfold av_at in D. destruct (nth_error (pr_vars s) i) as [[v|]|] eqn:Hv; cbn [bind] in D; try discriminate.
      destruct (g_call ne c (av_g v)) as [[o g]| |] eqn:E; cbn [bind] in D; try discriminate. injection D as <- <-. cbn [narrate]. eapply heard_inv; eauto. reflexivity.
    - unfold av_at in D. destruct (nth_error (pr_vars s) i) as [[v|]|] eqn:Hv; cbn [bind] in D; try discriminate. injection D as <- <-. cbn [narrate].
      destruct (F2_nth _ _ _ _ _ V Hv) as (y & Hy & R). destruct y as [y|]; [|contradiction]. rewrite (proj1 (at_story _ _ _) Hy). destruct R as (R1 & _).
      split; [exact V|]. split; [|split; [exact F|exact W]]. cbn [ss_push pr_push]. rewrite map_app. cbn. rewrite P, R1. reflexivity.
    - destruct (nth_error (pr_push s) p) as [q|] eqn:Q; [|discriminate].
      assert (D0 : (r = ADead /\ s' = s) \/ exists v o g, nth_error (pr_vars s) (ap_var q) = Some (Some v) /\ g_call ne (GoPush x (ap_h q) c1 c2) (av_g v) = Ok (o, g) /\ r = ARecs (out_handler o) /\
        s' = mk_aprog (set_nth (ap_var q) (Some (av_after g v)) (pr_vars s)) (pr_push s)).
      { destruct (nth_error (pr_vars s) (ap_var q)) as [[v|]|] eqn:Hv; [|injection D as <- <-; auto|injection D as <- <-; auto].
        destruct (ap_tok q) as [k|]; [|injection D as <- <-; auto]. destruct (tok_alive k s); [|injection D as <- <-; auto].
        destruct (g_call ne (GoPush x (ap_h q) c1 c2) (av_g v)) as [[o g]| |] eqn:E; cbn [bind] in D; try discriminate. injection D as <- <-.
        right. exists v, o, g. auto. }
      destruct D0 as [(-> & ->)|(v & o & g & Hv & E & -> & ->)]; cbn [narrate]; [exact I|].
      rewrite P. rewrite (map_nth_error _ _ _ Q). eapply heard_inv; eauto. reflexivity.
    - unfold av_at in D. destruct (nth_error (pr_vars s) i) as [[v|]|] eqn:Hv; cbn [bind] in D; try discriminate. injection D as <- <-. cbn [narrate].
      assert (C : forall j z, story_at j (mk_stories (set_nth i None (ss_of t)) (ss_push t)) = Some z -> story_at j t = Some z).
      { intros j z H. apply at_story in H. cbn [ss_of] in H. rewrite nth_set_cases in H. destruct (Nat.eq_dec i j); [destruct (nth_error (ss_of t) i); discriminate|]. apply at_story. exact H. }
      split; [|split; [exact P|split]].
      + cbn [pr_vars ss_of]. apply F2_set; [exact V|exact Logic.I].
      + intros j z Hz. cbn [ss_of]. rewrite set_nth_length. exact (F j z (C _ _ Hz)).
      + intros j k z u Hz Hu. apply (W j k z u); auto.
  Qed.
  Lemma stories_snoc : forall ops outs op r, length ops = length outs -> stories_of (ops ++ [op]) (outs ++ [r]) = narrate (stories_of ops outs) (op, r).
  Proof.
    intros ops outs op r L. unfold stories_of. assert (C : combine (ops ++ [op]) (outs ++ [r]) = combine ops outs ++ [(op, r)]); [|rewrite C, fold_left_app; reflexivity].
    revert outs L. induction ops as [|a ops IH]; intros [|b outs] L; cbn in *; try discriminate; [reflexivity|]. f_equal. apply IH. lia.
  Qed.
  Lemma run_inv : forall ops outs s, am_run ne am_start ops = Ok (outs, s) -> length ops = length outs /\ AMInv s (stories_of ops outs).
  Proof.
    induction ops as [|op ops IH] using rev_ind; intros outs s H.
    - injection H as <- <-. split; [reflexivity|]. split; [constructor|]. split; [reflexivity|]. split; intros i; intros; destruct i; discriminate.
    - assert (X : exists outs0 s0 r, am_run ne am_start ops = Ok (outs0, s0) /\ am_do ne op s0 = Ok (r, s) /\ outs = outs0 ++ [r]).
      { clear IH. revert outs H. generalize am_start. induction ops as [|a ops IH]; intros s0 outs H; cbn [app am_run] in H.
        - destruct (am_do ne op s0) as [[r1 s1]| |] eqn:E; cbn [bind am_run] in H; try discriminate. injection H as <- <-. exists [], s0, r1. auto.
        - cbn [am_run]. destruct (am_do ne a s0) as [[r1 s1]| |]; cbn [bind] in H |- *; try discriminate.
          destruct (am_run ne s1 (ops ++ [op])) as [[rs s2]| |] eqn:E; cbn [bind] in H; try discriminate. injection H as <- <-.
          destruct (IH _ _ E) as (outs0 & s3 & r & A & B & ->). exists (r1 :: outs0), s3, r. rewrite A. auto. }
      destruct X as (outs0 & s0 & r & A & B & ->). destruct (IH _ _ A) as [L I]. split; [rewrite !app_length; cbn; lia|].
      rewrite stories_snoc by exact L. eapply step_inv; eauto.
  Qed.
End Proofs.
