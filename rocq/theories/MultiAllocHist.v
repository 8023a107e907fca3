(** Histories of a multi_aggregator when allocations fail, seen from one name. *)
From Coq Require Import ZArith List Bool Permutation Lia Arith Ascii.
From Verif Require Import Base ModelTypes ModelAvg ModelReducer SpecReducer ModelSeparator SpecSeparator SepProofs
  ModelAggregator SpecAggregator AggProofs AggRun AggFinal AggSafe ModelRegistry SpecRegistry RegProofs ModelMulti SpecMulti MultiProofs MultiRun
  ModelAlloc ModelAggAlloc SpecAggAlloc AggAllocProofs ModelThrow SpecThrow ModelMultiThrow MultiThrowProofs MultiThrowRun MultiThrowHist
  ModelMultiAlloc SpecMultiAlloc MultiAllocProofs.
Import ListNotations.
Local Open Scope Z_scope.

Lemma of_name_self {A} n (l : list A) : of_name n (map (fun a => (n, a)) l) = l.
Proof. pose proof (of_name_own (B := A) n (fun x => x) l) as W. now rewrite map_id in W. Qed.
Lemma of_name_not {A} n k (l : list A) : k <> n -> of_name n (map (fun a => (k, a)) l) = [].
Proof. apply (of_name_other (B := A) n k (fun x => x)). Qed.

Section Nth.
  Variable ne : nat -> list Z -> list Z.

  (** What happened to the aggregator of one name in a pushout; [r]: it failed. *)
  Definition fcell (r force : bool) (c c' : option agg) (recs lost : list adata) : Prop :=
    (exists g a g', c = Some g /\ pop1 ne force g = Ok (a, g') /\ c' = Some g' /\ recs ++ lost = opt1 a) \/
    (c' = c /\ recs = [] /\ lost = [] /\ (r = true \/ c = None)).

  Lemma loop_f_spec f force : forall ks b r l w b1, NoDup ks -> NoDup (keys b) -> (forall k, In k ks -> In k (keys b)) ->
    bm_loop_f ne f force ks b = Ok (r, l, w, b1) ->
    (forall n, In n ks -> fcell r force (bm_find n b) (bm_find n b1) (of_name n l) (of_name n w)) /\
    (forall n, ~ In n ks -> of_name n l = [] /\ of_name n w = []) /\ (length w <= if r then 1 else 0)%nat.
  Proof.
    induction ks as [|k ks IH]; intros b r l w b1 NK NB S E.
    - cbn [bm_loop_f] in E. injection E as <- <- <- <-. split; [intros n []|]. auto.
    - pose proof (loop_f_frame ne _ _ _ _ _ _ _ _ E) as [_ FR]. cbn [bm_loop_f] in E.
      inversion NK; subst. destruct (bm_find k b) as [g|] eqn:F; [|exfalso; apply bm_find_none in F; apply F, S; left; auto].
      cbv zeta in E. set (here := match f with Some (k0, x) => if name_eqb k k0 then Some x else None | None => None end) in E.
      fold (pop1 ne force g) in E.
      assert (X : forall a g1, pop1 ne force g = Ok (a, g1) ->
        ('(b, l, w, m2) <- bm_loop_f ne f force ks (bm_set k g1 b) ;; Ok (b, match a with Some x => (k, x) :: l | None => l end, w, m2)) = Ok (r, l, w, b1) ->
        (forall n, In n (k :: ks) -> fcell r force (bm_find n b) (bm_find n b1) (of_name n l) (of_name n w)) /\
        (forall n, ~ In n (k :: ks) -> of_name n l = [] /\ of_name n w = []) /\ (length w <= if r then 1 else 0)%nat).
      { intros a g1 P X. assert (K1 : keys (bm_set k g1 b) = keys b) by (rewrite bm_set_keys, F; auto).
        destruct (bm_loop_f _ _ _ _ _) as [[[[r2 l2] w2] b2]| |] eqn:L; cbn [bind] in X; try discriminate. injection X as -> <- -> ->.
        destruct (IH _ _ _ _ _ H2 ltac:(rewrite K1; auto) ltac:(intros x Hx; rewrite K1; apply S; right; auto) L) as (A2 & A3 & A4).
        pose proof (loop_f_frame ne _ _ _ _ _ _ _ _ L) as [_ FR2].
        assert (OL : forall n, of_name n match a with Some x => (k, x) :: l2 | None => l2 end = (if name_eqb n k then opt1 a else []) ++ of_name n l2).
        { intros n. destruct a as [x|]; [rewrite of_name_cons|]; destruct (name_eqb n k); reflexivity. }
        split; [|split; [|exact A4]].
        - intros n [<-|I]; rewrite OL.
          + destruct (A3 k H1) as [B1 B2]. rewrite name_eqb_refl, B1, B2, app_nil_r, FR2, bm_set_find, name_eqb_refl by auto. left.
            exists g, a, g1. rewrite app_nil_r. auto.
          + assert (N : n <> k) by congruence. destruct (name_eqb_spec n k); [congruence|]. cbn [app]. specialize (A2 n I).
            rewrite bm_set_find in A2. destruct (name_eqb_spec k n); [congruence|]. exact A2.
        - intros n I. rewrite OL. destruct (name_eqb_spec n k) as [->|N]; [exfalso; apply I; left; auto|]. apply A3. intros J; apply I; right; auto. }
      destruct here as [[]|].
      + destruct (force && _ && _).
        * injection E as <- <- <- <-. split; [|split; [auto|cbn; lia]]. intros n I. right. auto.
        * destruct (pop1 ne force g) as [[a g1]| |] eqn:P; cbn [bind] in E; try discriminate. apply (X a g1 eq_refl). destruct a; exact E.
      + destruct (pop1 ne force g) as [[a g1]| |] eqn:P; cbn [bind] in E; try discriminate. destruct a as [x|]; [|apply (X None g1 eq_refl); exact E].
        injection E as <- <- <- <-. split; [|split].
        * intros n I. rewrite of_name_cons, bm_set_find. destruct (name_eqb_spec n k) as [->|N].
          -- left. exists g, (Some x), g1. rewrite name_eqb_refl. auto.
          -- right. destruct (name_eqb_spec k n); [congruence|]. auto.
        * intros n I. rewrite of_name_cons. destruct (name_eqb_spec n k) as [->|N]; [exfalso; apply I; left; auto|]. auto.
        * cbn. lia.
      + destruct (pop1 ne force g) as [[a g1]| |] eqn:P; cbn [bind] in E; try discriminate. apply (X a g1 eq_refl). destruct a; exact E.
  Qed.
  Lemma pushout_f_spec f force ord b r l w b1 : (forall l, Permutation (ord l) l) -> NoDup (keys b) ->
    bm_pushout_f ne f force ord b = Ok (r, l, w, b1) ->
    keys b1 = keys b /\ (forall n, fcell r force (bm_find n b) (bm_find n b1) (of_name n l) (of_name n w)) /\
    (forall n, ~ In n (keys b) -> of_name n l = [] /\ of_name n w = []) /\ (length w <= if r then 1 else 0)%nat.
  Proof.
    intros O N E. unfold bm_pushout_f in E. specialize (O (keys b)).
    destruct (loop_f_spec f force _ _ _ _ _ _ (Permutation_NoDup (Permutation_sym O) N) N ltac:(intros k; apply Permutation_in, O) E) as (A2 & A3 & A4).
    destruct (loop_f_frame ne _ _ _ _ _ _ _ _ E) as [A1 FR]. split; [exact A1|].
    assert (Z : forall n, ~ In n (keys b) -> ~ In n (ord (keys b))) by (intros n I J; apply I; exact (Permutation_in _ O J)).
    split; [|split; [intros n I; apply A3, Z, I|exact A4]]. intros n. destruct (in_dec (list_eq_dec ascii_dec) n (keys b)) as [I|I].
    - apply A2. exact (Permutation_in _ (Permutation_sym O) I).
    - destruct (A3 n (Z n I)) as [B1 B2]. right. rewrite (FR n (Z n I)). split; [reflexivity|]. split; [exact B1|]. split; [exact B2|]. right. now apply bm_find_none.
  Qed.
  Lemma shards_f_spec f force ord : (forall l, Permutation (ord l) l) -> forall bs r l w bs1, NoDup (flat_map keys bs) ->
    ma_shards_f ne f force ord bs = Ok (r, l, w, bs1) ->
    length bs1 = length bs /\ (forall n, ~ In n (flat_map keys bs) -> of_name n l = [] /\ of_name n w = []) /\ (length w <= if r then 1 else 0)%nat /\
    (forall i b, nth_error bs i = Some b -> exists b1, nth_error bs1 i = Some b1 /\ keys b1 = keys b /\
      (forall n, ~ In n (keys b) -> bm_find n b1 = None) /\ (forall n, In n (keys b) -> fcell r force (bm_find n b) (bm_find n b1) (of_name n l) (of_name n w))).
  Proof.
    intros O. induction bs as [|b bs IH]; intros r l w bs1 ND E; cbn [ma_shards_f] in E.
    - injection E as <- <- <- <-. split; [reflexivity|]. split; [auto|]. split; [auto|]. intros i b H. destruct i; discriminate.
    - cbn [flat_map] in ND. destruct (app_nodup _ _ ND) as (NB & NR & D).
      destruct (bm_pushout_f _ _ _ _ _) as [[[[r1 l1] w1] b1]| |] eqn:E1; cbn [bind] in E; try discriminate.
      destruct (pushout_f_spec _ _ _ _ _ _ _ _ O NB E1) as (A1 & A2 & A3 & A4).
      assert (K : forall n, ~ In n (keys b) -> bm_find n b1 = None) by (intros n I; apply bm_find_none; rewrite A1; exact I).
      destruct r1.
      + injection E as <- <- <- <-. split; [reflexivity|]. split; [intros n I; apply A3; intros J; apply I, in_app_iff; auto|]. split; [exact A4|].
        intros i x H. destruct i; cbn in H.
        * injection H as <-. exists b1. split; [reflexivity|]. split; [exact A1|]. split; [exact K|]. intros n _. apply A2.
        * exists x. split; [exact H|]. split; [reflexivity|]. split; [intros n I; now apply bm_find_none|]. intros n I. right. split; [reflexivity|].
          assert (B : of_name n l1 = [] /\ of_name n w1 = []).
          { apply A3. intros J. apply (D n J). apply in_flat_map. exists x. split; [eapply nth_error_In; eauto|exact I]. }
          destruct B. auto.
      + destruct (ma_shards_f _ _ _ _ _) as [[[[r2 l2] w2] t1]| |] eqn:E2; cbn [bind] in E; try discriminate. injection E as <- <- <- <-.
        assert (w1 = []) as -> by (destruct w1; [reflexivity|cbn in A4; lia]).
        destruct (IH _ _ _ _ NR eq_refl) as (B1 & B2 & B4 & B3). split; [cbn; congruence|]. split.
        { intros n I. rewrite of_name_app. destruct (A3 n) as [X1 _]; [intros J; apply I, in_app_iff; auto|]. destruct (B2 n) as [X2 X3]; [intros J; apply I, in_app_iff; auto|].
          rewrite X1, X2. auto. }
        split; [exact B4|]. intros i x H. destruct i; cbn in H.
        * injection H as <-. exists b1. split; [reflexivity|]. split; [exact A1|]. split; [exact K|]. intros n I.
          destruct (B2 n (D n I)) as [X1 X2]. rewrite of_name_app, X1, X2, app_nil_r. destruct (A2 n) as [W|(W1 & W2 & W3 & [W4|W4])]; [left; exact W|discriminate|].
          right. auto.
        * destruct (B3 _ _ H) as (x1 & C1 & C2 & C3 & C4). exists x1. split; [exact C1|]. split; [exact C2|]. split; [exact C3|]. intros n I.
          rewrite of_name_app. destruct (A3 n) as [X1 _]; [|rewrite X1; apply C4; exact I]. intros J. apply (D n J). apply in_flat_map. exists x.
          split; [eapply nth_error_In; eauto|exact I].
  Qed.
End Nth.

Section Hist.
  Variable ne : nat -> list Z -> list Z.
  Variable hash : name -> Z.
  Variable o : maopts.
  Notation get := (ma_get hash o).

  Lemma push_f_sim m e n d f r l w m1 : MInv hash o m -> ma_push_f ne hash e n d f m = Ok (r, l, w, m1) ->
    MInv hash o m1 /\
    ((r = None /\ l = [] /\ w = [] /\ m1 = m /\ (f = Some MfStart \/ f = Some MfNew)) \/
     exists g t g1,
      match get m n with Some g0 => g = g0 | None => agg_new (ma_agg o) (pe_clock e) (pe_rnd e) (ri_ts (rd_info d)) = Ok g end /\
      gf_call ne (GoPush (SmRed d) true (pe_c1 e) (pe_c2 e)) (inner f) g = Ok (t, g1) /\
      l = map (fun a => (n, a)) (fgiven t) /\ w = map (fun a => (n, a)) (flost t) /\ update (get m) n (Some g1) (get m1) /\
      match t with GRet _ => r <> None | GThrew _ _ => r = None end).
  Proof.
    intros I E.
    assert (E' : (f = Some MfStart /\ Ok (None, [], [], m) = Ok (r, l, w, m1)) \/
      (i <- ma_pos hash n m ;; s <- ma_shard i m ;; '(r, l, w, b1) <- bm_push_f ne (ma_agg (mu_opt m)) e n d f s ;; Ok (r, l, w, ma_put i b1 m)) = Ok (r, l, w, m1))
      by (unfold ma_push_f in E; destruct f as [[| |]|]; auto). clear E. destruct E' as [[-> E]|E]; [injection E as <- <- <- <-; split; [exact I|left; auto 10]|].
    rewrite (pos_ok hash o m n I) in E. cbn [bind] in E. destruct (shard_ok hash o m n I) as (s & E1 & E2 & E3). rewrite E2 in E. cbn [bind] in E.
    rewrite (mi_opt _ _ _ I) in E. destruct (bm_push_f _ _ _ _ _ _ _) as [[[[r1 l1] w1] b1]| |] eqn:P; cbn [bind] in E; try discriminate. injection E as <- <- <- <-.
    destruct (bm_push_apart _ _ _ _ _ _ _ _ _ _ _ P) as [(-> & -> & -> & -> & -> & F)|(g & t & g1 & A & B & -> & -> & -> & C)].
    - assert (M : ma_put (shard_of hash o n) s m = m).
      { destruct m as [mo ml]. unfold ma_put. cbn [mu_opt mu_list] in *. f_equal. clear - E1. revert ml E1. generalize (shard_of hash o n) as i.
        induction i as [|i IH]; intros [|b ml] E1; cbn in *; try discriminate; [injection E1 as ->; reflexivity|]. f_equal. auto. }
      rewrite M. split; [exact I|left; auto 10].
    - destruct (put_inv hash o m n s (bm_set n g1 s) I E1) as (J1 & J2).
      + rewrite bm_set_keys. pose proof (mi_nd _ _ _ I _ _ E1). destruct (bm_find n s) eqn:F; auto. constructor; auto. now apply bm_find_none.
      + intros k. rewrite bm_set_keys. destruct (bm_find n s); simpl; intuition.
      + intros k Hk. rewrite bm_set_find. destruct (name_eqb_spec n k); congruence.
      + split; auto. right. exists g, t, g1. split; [rewrite E3; exact A|]. split; [exact B|]. split; [reflexivity|]. split; [reflexivity|].
        rewrite bm_set_find, name_eqb_refl in J2. split; [exact J2|]. destruct t; [destruct C as (b & -> & _); discriminate|exact C].
  Qed.
  Lemma pushout_f_sim m force ord f r l w m1 : MInv hash o m -> (forall l, Permutation (ord l) l) -> ma_pushout_f ne f force ord m = Ok (r, l, w, m1) ->
    MInv hash o m1 /\ (forall n, fcell ne r force (get m n) (get m1 n) (of_name n l) (of_name n w)) /\ (length w <= if r then 1 else 0)%nat.
  Proof.
    intros I O E. unfold ma_pushout_f in E. destruct (ma_shards_f _ _ _ _ _) as [[[[r1 l1] w1] bs]| |] eqn:S; cbn [bind] in E; try discriminate. injection E as <- <- <- <-.
    destruct (shards_f_spec _ _ _ _ O _ _ _ _ _ (flat_nodup hash o m I) S) as (A1 & A2 & A4 & A3). split; [|split; [|exact A4]].
    - destruct I. constructor; cbn [mu_list mu_opt]; auto; [congruence| |].
      + intros i b H. destruct (nth_error (mu_list m) i) as [b0|] eqn:F; [|exfalso; apply nth_error_None in F; assert (i < length bs)%nat by (eapply nth_error_lt; eauto); lia].
        destruct (A3 _ _ F) as (b1 & B1 & B2 & _). assert (b1 = b) by congruence. subst b1. rewrite B2. eauto.
      + intros i b k H. destruct (nth_error (mu_list m) i) as [b0|] eqn:F; [|exfalso; apply nth_error_None in F; assert (i < length bs)%nat by (eapply nth_error_lt; eauto); lia].
        destruct (A3 _ _ F) as (b1 & B1 & B2 & _). assert (b1 = b) by congruence. subst b1. rewrite B2. eauto.
    - intros n. destruct (shard_ok hash o m n I) as (s & E1 & E2 & E3). destruct (A3 _ _ E1) as (b1 & B1 & B2 & B3 & B4).
      assert (G1 : get (mk_multi (mu_opt m) bs) n = bm_find n b1) by (unfold ma_get; cbn [mu_list]; now rewrite B1). rewrite G1, E3.
      destruct (in_dec (list_eq_dec ascii_dec) n (keys s)) as [J|J]; [apply B4, J|]. rewrite (B3 n J). right. rewrite (proj2 (bm_find_none n s)) by exact J.
      split; [reflexivity|]. assert (B : of_name n l1 = [] /\ of_name n w1 = []); [|destruct B; auto].
      apply A2. intros K. apply J. apply in_flat_map in K. destruct K as (b & K1 & K2). apply In_nth_error in K1. destruct K1 as (i & K1).
      assert (shard_of hash o n = i) by (eapply mi_key; eauto). subst i. assert (s = b) by congruence. subst b. exact K2.
  Qed.

  (** Nothing is ever queued. *)
  Lemma fpush_quiet d f c1 c2 g t g1 : quiet g -> gf_call ne (GoPush (SmRed d) true c1 c2) f g = Ok (t, g1) -> quiet g1.
  Proof.
    intros Q E. destruct t as [x|recs lost]; [apply call_ret in E; eapply quiet_push; eauto|].
    cbn [gf_call] in E. unfold g_push_f in E. cbn [negb andb] in E. destruct (at_start f); [injection E as _ _ <-; exact Q|].
    destruct (g_enabled g); cbn [negb] in E; [|discriminate].
    destruct (s_put_f _ _ _ _ _ _ _ _) as [[[[b rs] ls] s]| |] eqn:P; cbn [bind] in E; try discriminate.
    destruct (g_finish_all _ _ _); cbn [bind] in E; try discriminate.
    assert (SL : s_list s = s_list (g_sep g)).
    { unfold s_put_f in P. destruct (get_ts _ _ _ _); cbn [bind] in P; try discriminate.
      destruct (s_separate_f _ _ _ _ _ _ _ _) as [[[[b1 r1] l1] s1]| |] eqn:Sp; cbn [bind] in P; try discriminate.
      assert (S1 : s_list s1 = s_list (g_sep g)).
      { unfold s_separate_f in Sp. destruct (get_ts _ _ _ _); cbn [bind] in Sp; try discriminate. destruct (negb false && _); [injection Sp as _ _ _ <-; reflexivity|].
        destruct (sep_loop_f _ _ _ _ _ _ _ _) as [[[[? ?] ?] ?]| |]; cbn [bind] in Sp; try discriminate. injection Sp as _ _ _ <-. cbn [s_list]. apply app_nil_r. }
      destruct b1; [|injection P as _ _ _ <-; exact S1]. destruct (chk _); cbn [bind] in P; try discriminate. destruct (_ <? _); [injection P as _ _ _ <-; exact S1|].
      destruct (f_sound _ _ _ _) as [[? ?]| |]; cbn [bind] in P; try discriminate. injection P as _ _ _ <-. exact S1. }
    assert (g1 = g_set_sep s g) as -> by congruence. destruct Q as [Q1 Q2]. split; cbn; congruence.
  Qed.
  Lemma fcell_quiet r force c c' recs lost : (forall g, c = Some g -> quiet g) -> fcell ne r force c c' recs lost -> forall g, c' = Some g -> quiet g.
  Proof.
    intros Q [(g & a & g' & -> & P & -> & _)|(-> & _)] g0 E; [|auto]. injection E as <-.
    eapply (quiet_popc ne force g); [auto|]. rewrite pop1_call, P. reflexivity.
  Qed.
  Lemma fpush_TQ m e n d f r l w m1 : TQ hash o m -> ma_push_f ne hash e n d f m = Ok (r, l, w, m1) -> TQ hash o m1.
  Proof.
    intros [I Q] E. destruct (push_f_sim _ _ _ _ _ _ _ _ _ I E) as (I1 & [(_ & _ & _ & -> & _)|(g & t & g1 & A & B & _ & _ & U & _)]); [split; auto|]. split; [exact I1|].
    refine (update_quiet _ _ _ _ Q _ U). intros g2 E2. injection E2 as <-. eapply fpush_quiet; [|exact B].
    destruct (get m n) as [g0|] eqn:F; [subst; eauto|]. eapply quiet_new; eauto.
  Qed.
  Lemma fmulti_TQ : forall ps f m r l w m1, TQ hash o m -> ma_multi_push_f ne hash ps f m = Ok (r, l, w, m1) -> TQ hash o m1.
  Proof.
    induction ps as [|[e [n d]] ps IH]; intros f m r l w m1 Q E; cbn [ma_multi_push_f] in E; [injection E as _ _ _ <-; exact Q|].
    destruct (ma_push_f _ _ _ _ _ _ _) as [[[[r1 l1] w1] m2]| |] eqn:P; cbn [bind] in E; try discriminate. apply fpush_TQ in P; [|exact Q].
    destruct r1; [|injection E as _ _ _ <-; exact P]. destruct (ma_multi_push_f _ _ _ _ _) as [[[[r2 l2] w2] m3]| |] eqn:M; cbn [bind] in E; try discriminate.
    injection E as _ _ _ <-. eauto.
  Qed.
  Lemma fdo_TQ op m out m1 : TQ hash o m -> fm_order_ok op -> fm_do ne hash op m = Ok (out, m1) -> TQ hash o m1.
  Proof.
    intros Q O E. destruct op as [e n d f|ps f|n|force ord f|]; cbn [fm_do] in E.
    - destruct (ma_push_f _ _ _ _ _ _ _) as [[[[r l] w] m2]| |] eqn:P; cbn [bind] in E; try discriminate. injection E as _ <-. eapply fpush_TQ; eauto.
    - destruct (ma_multi_push_f _ _ _ _ _) as [[[[r l] w] m2]| |] eqn:P; cbn [bind] in E; try discriminate. injection E as _ <-. eapply fmulti_TQ; eauto.
    - destruct (ma_del _ _ _) as [[b m2]| |] eqn:D; cbn [bind] in E; try discriminate. injection E as _ <-. destruct Q as [I Q].
      destruct (mdel_sim hash o m n b m2 I D) as (I1 & _ & U). split; [exact I1|]. refine (update_quiet _ _ _ _ Q _ U). discriminate.
    - destruct (ma_pushout_f _ _ _ _ _) as [[[[r l] w] m2]| |] eqn:P; cbn [bind] in E; try discriminate. injection E as _ <-. destruct Q as [I Q].
      destruct (pushout_f_sim _ _ _ _ _ _ _ _ I O P) as (I1 & C & _). split; [exact I1|]. intros n. eapply fcell_quiet; [|apply C]. apply Q.
    - injection E as _ <-. exact Q.
  Qed.
  Lemma frun_TQ : forall ops m outs m1, TQ hash o m -> Forall fm_order_ok ops -> fm_run ne hash m ops = Ok (outs, m1) -> TQ hash o m1.
  Proof.
    induction ops as [|op ops IH]; intros m outs m1 Q O E; cbn [fm_run] in E; [injection E as _ <-; exact Q|]. inversion O; subst.
    destruct (fm_do _ _ _ _) as [[out m2]| |] eqn:D; cbn [bind] in E; try discriminate. destruct (fm_run _ _ _ _) as [[outs2 m3]| |] eqn:R; cbn [bind] in E; try discriminate.
    injection E as _ <-. eapply IH; [eapply fdo_TQ; eauto|auto|exact R].
  Qed.
  Lemma fpushout_retry m ord f l m2 l1 w m1 : TQ hash o m -> (forall l, Permutation (ord l) l) ->
    ma_pushout ne true true ord m = Ok (l, m2) -> ma_pushout_f ne f true ord m = Ok (true, l1, w, m1) ->
    exists l2, ma_pushout ne true true ord m1 = Ok (l2, m2) /\ l = l1 ++ w ++ l2.
  Proof.
    intros Q O E T. unfold ma_pushout, ma_pushout_f in *.
    destruct (ma_shards ne true true ord (mu_list m)) as [[la bs2]| |] eqn:S; cbn [bind] in E; try discriminate. injection E as <- <-.
    destruct (ma_shards_f _ _ _ _ _) as [[[[r lb] wb] bs1]| |] eqn:ST; cbn [bind] in T; try discriminate. injection T as -> <- <- <-.
    destruct (shards_f_retry ne f ord O _ _ _ _ _ _ (TQ_shards hash o m Q) S ST) as (l2 & R & ->). exists l2. cbn [mu_list mu_opt]. rewrite R. auto.
  Qed.
  Lemma loop_f_silent f : forall ks b, NoDup (keys b) -> no_list b -> bm_loop_f ne f false ks b = Ok (false, [], [], b).
  Proof.
    induction ks as [|k ks IH]; intros b N Q; cbn [bm_loop_f]; auto. destruct (bm_find k b) as [g|] eqn:F; auto. cbn [andb].
    rewrite quiet_pop by (eapply Q; eauto). cbn [bind]. rewrite bm_set_id by auto. rewrite (IH b N Q).
    destruct (match f with Some (k0, x) => _ | None => _ end) as [[]|]; reflexivity.
  Qed.
  Lemma pushout_f_silent m ord f : TQ hash o m -> ma_pushout_f ne f false ord m = Ok (false, [], [], m).
  Proof.
    intros Q. unfold ma_pushout_f. enough (G : ma_shards_f ne f false ord (mu_list m) = Ok (false, [], [], mu_list m)) by (rewrite G; destruct m; reflexivity).
    pose proof (TQ_shards hash o m Q) as H. clear Q. induction (mu_list m) as [|b bs IH]; cbn [ma_shards_f]; auto. unfold bm_pushout_f.
    destruct (H b (or_introl eq_refl)) as [N Q]. rewrite loop_f_silent by auto. cbn [bind]. rewrite IH by (intros x Hx; apply H; right; auto). reflexivity.
  Qed.

  (** * One name *)
  Lemma gf_run_app l1 : forall l2 g, gf_run ne g (l1 ++ l2) =
    ('(o1, g1) <- gf_run ne g l1 ;; '(o2, g2) <- gf_run ne g1 l2 ;; Ok (o1 ++ o2, g2)).
  Proof.
    induction l1 as [|[x f] l1 IH]; intros l2 g; simpl; [destruct (gf_run ne g l2) as [[? ?]| |]; auto|].
    destruct (gf_call ne x f g) as [[r g1]| |]; cbn [bind]; auto. rewrite IH.
    destruct (gf_run ne g1 l1) as [[o1 g2]| |]; cbn [bind]; auto. destruct (gf_run ne g2 l2) as [[o2 g3]| |]; cbn [bind]; auto.
  Qed.
  Definition fidle (hs : list fcall) : Prop := Forall (fun h => exists f, h = (pop_call f, None)) hs.
  Definition fwent (hs : list fcall) (c c' : option agg) (recs lost : list adata) : Prop :=
    match c with
    | Some g => exists es g1, gf_run ne g hs = Ok (es, g1) /\ c' = Some g1 /\ Permutation (recs ++ lost) (flat_map f_reports es)
    | None => (c' = None /\ recs = [] /\ lost = [] /\ fidle hs) \/
              exists g0 es g1, made o g0 /\ gf_run ne g0 hs = Ok (es, g1) /\ c' = Some g1 /\ Permutation (recs ++ lost) (flat_map f_reports es)
    end.
  Lemma idle_f g0 hs : made o g0 -> fidle hs -> exists es, gf_run ne g0 hs = Ok (es, g0) /\ flat_map f_reports es = [].
  Proof.
    intros (c & rnd & ts & E). induction 1 as [|h hs (f & ->) H (es & C & R)]; cbn [gf_run]; eauto.
    rewrite call_plain, (new_pop ne (ma_agg o) c rnd ts g0 f E). cbn [bind]. rewrite C. cbn [bind]. eexists. split; [reflexivity|]. cbn. exact R.
  Qed.
  Lemma perm_swap {A} (a b c d : list A) : Permutation ((a ++ b) ++ c ++ d) ((a ++ c) ++ b ++ d).
  Proof. rewrite <- !app_assoc. apply Permutation_app_head. rewrite !app_assoc. apply Permutation_app_tail, Permutation_app_comm. Qed.
  Lemma fwent_app h1 h2 a b c r1 r2 l1 l2 : fwent h1 a b r1 l1 -> fwent h2 b c r2 l2 -> fwent (h1 ++ h2) a c (r1 ++ r2) (l1 ++ l2).
  Proof.
    intros W1 W2. destruct a as [g|]; cbn [fwent] in *.
    - destruct W1 as (rs & g1 & A & -> & P1). cbn [fwent] in W2. destruct W2 as (rs2 & g2 & B & -> & P2).
      exists (rs ++ rs2), g2. rewrite gf_run_app, A. cbn [bind]. rewrite B. cbn [bind]. split; [reflexivity|]. split; [reflexivity|].
      rewrite flat_map_app, perm_swap, P1, P2. reflexivity.
    - destruct W1 as [(-> & -> & -> & I1)|(g0 & rs & g1 & M & A & -> & P1)].
      + cbn [fwent] in W2. destruct W2 as [(-> & -> & -> & I2)|(g0 & rs & g1 & M & A & -> & P2)].
        * left. split; [reflexivity|]. split; [reflexivity|]. split; [reflexivity|]. now apply Forall_app.
        * right. destruct (idle_f g0 h1 M I1) as (rs0 & B & R0). exists g0, (rs0 ++ rs), g1. split; [exact M|]. rewrite gf_run_app, B. cbn [bind]. rewrite A. cbn [bind].
          split; [reflexivity|]. split; [reflexivity|]. now rewrite flat_map_app, R0.
      + cbn [fwent] in W2. destruct W2 as (rs2 & g2 & B & -> & P2). right. exists g0, (rs ++ rs2), g2. split; [exact M|]. rewrite gf_run_app, A. cbn [bind]. rewrite B. cbn [bind].
        split; [reflexivity|]. split; [reflexivity|]. rewrite flat_map_app, perm_swap, P1, P2. reflexivity.
  Qed.
  Lemma fwent_nil c : fwent [] c c [] [].
  Proof. destruct c as [g|]; cbn; [exists [], g; auto|left; repeat split; constructor]. Qed.
  Lemma push_fwent e k d f m r l w m1 n : MInv hash o m -> ma_push_f ne hash e k d f m = Ok (r, l, w, m1) ->
    fwent (fpush n (e, (k, d)) f) (get m n) (get m1 n) (of_name n l) (of_name n w) \/
    (r = None /\ (f = Some MfStart \/ f = Some MfNew) /\ fwent [] (get m n) (get m1 n) (of_name n l) (of_name n w)).
  Proof.
    intros I E. destruct (push_f_sim _ _ _ _ _ _ _ _ _ I E) as (I1 & [(-> & -> & -> & -> & Hf)|(g & t & g1 & A & B & -> & -> & [U1 U2] & _)]).
    { right. split; [reflexivity|]. split; [exact Hf|]. apply fwent_nil. }
    left. unfold fpush. cbn [fst snd]. destruct (name_eqb_spec n k) as [->|N].
    - rewrite !of_name_self, U1. destruct (get m k) as [g0|]; cbn [fwent].
      + subst g0. exists [t], g1. cbn [gf_run]. rewrite B. cbn [bind flat_map]. rewrite app_nil_r, f_reports_eq. auto.
      + right. exists g, [t], g1. split; [unfold made; eauto|]. cbn [gf_run]. rewrite B. cbn [bind flat_map]. rewrite app_nil_r, f_reports_eq. auto.
    - rewrite !of_name_not, U2 by congruence. apply fwent_nil.
  Qed.
  Lemma multi_fwent n : forall ps f m r l w m1, MInv hash o m -> ma_multi_push_f ne hash ps f m = Ok (r, l, w, m1) ->
    MInv hash o m1 /\ exists hs, fpart n (FmMulti ps f) (if (r : bool) then FmThrew l w else FmAns true l) hs /\ fwent hs (get m n) (get m1 n) (of_name n l) (of_name n w).
  Proof.
    induction ps as [|[e [k d]] ps IH]; intros f m r l w m1 I E; cbn [ma_multi_push_f] in E.
    - injection E as <- <- <- <-. split; [exact I|]. exists []. split; [left; reflexivity|]. apply fwent_nil.
    - destruct (ma_push_f _ _ _ _ _ _ _) as [[[[r1 l1] w1] m2]| |] eqn:P; cbn [bind] in E; try discriminate.
      destruct (push_f_sim _ _ _ _ _ _ _ _ _ I P) as (I1 & _). pose proof (push_fwent _ _ _ _ _ _ _ _ _ n I P) as PW.
      set (f0 := match f with Some (O, x) => Some x | _ => None end) in *. destruct r1 as [b|].
      + destruct PW as [PW|(PW & _)]; [|discriminate]. destruct (ma_push_back ne hash _ _ _ _ _ _ _ _ _ P) as [_ ->].
        destruct (ma_multi_push_f _ _ _ _ _) as [[[[r2 l2] w2] m3]| |] eqn:M; cbn [bind] in E; try discriminate. injection E as <- <- <- <-.
        destruct (IH _ _ _ _ _ _ I1 M) as (I2 & hs & FP & W). split; [exact I2|]. exists (fpush n (e, (k, d)) f0 ++ hs). split.
        * destruct r2; cbn [fpart fm_threw] in *.
          -- destruct FP as (p1 & p & p2 & x & -> & Ef & H). destruct f as [[[|i] y]|]; try discriminate. injection Ef as -> ->. subst f0.
             exists ((e, (k, d)) :: p1), p, p2, x. split; [reflexivity|]. split; [reflexivity|]. cbn [flat_map].
             destruct H as [->|[-> Hx]]; [left; now rewrite app_assoc|right; auto].
          -- destruct f as [[[|i] y]|]; subst f0.
             ++ right. exists [], (e, (k, d)), ps, y. split; [reflexivity|]. split; [reflexivity|]. cbn [flat_map app].
                destruct FP as [->|(p1 & p & p2 & x & _ & ? & _)]; [reflexivity|discriminate].
             ++ destruct FP as [->|(p1 & p & p2 & x & -> & Ef & ->)]; [left; reflexivity|]. injection Ef as -> ->. right.
                exists ((e, (k, d)) :: p1), p, p2, x. split; [reflexivity|]. split; [reflexivity|]. cbn [flat_map]. now rewrite app_assoc.
             ++ destruct FP as [->|(p1 & p & p2 & x & _ & ? & _)]; [left; reflexivity|discriminate].
        * rewrite of_name_app. change (of_name n w2) with (of_name n ([] ++ w2)). rewrite of_name_app. eapply fwent_app; eauto.
      + injection E as <- <- <- <-. split; [exact I1|].
        assert (Ef : exists x, f = Some (O, x)).
        { destruct f as [[[|i] x]|]; [eauto| |]; subst f0; rewrite ma_push_plain in P; destruct (ma_push ne hash e k d true m) as [[[? ?] ?]| |]; discriminate. }
        destruct Ef as [x ->]. subst f0. destruct PW as [W|(_ & Hx & W)].
        * exists (fpush n (e, (k, d)) (Some x)). split; [|exact W]. exists [], (e, (k, d)), ps, x. auto.
        * exists []. split; [|exact W]. exists [], (e, (k, d)), ps, x. split; [reflexivity|]. split; [reflexivity|]. right. split; [reflexivity|].
          destruct Hx as [Hx|Hx]; injection Hx as ->; auto.
  Qed.
  Lemma cell_fwent r force c c' recs lost : fcell ne r force c c' recs lost ->
    fwent [(pop_call force, None)] c c' recs lost \/ r = true /\ fwent [] c c' recs lost.
  Proof.
    intros [(g & a & g' & -> & P & -> & Hr)|(-> & -> & -> & H)].
    - left. cbn [fwent]. exists [GRet (mk_sout None [] a)], g'. cbn [gf_run]. rewrite call_plain, pop1_call, P. cbn [bind flat_map f_reports]. unfold reports. cbn [out_handler out_ptr map app].
      split; [reflexivity|]. split; [reflexivity|]. rewrite Hr, app_nil_r. destruct a; reflexivity.
    - destruct H as [->| ->]; [right; split; [reflexivity|apply fwent_nil]|left; left; repeat split; auto]. constructor; [eauto|constructor].
  Qed.
  Lemma do_fwent op m out m1 n : MInv hash o m -> fm_order_ok op -> fm_do ne hash op m = Ok (out, m1) -> op <> FmDel n ->
    MInv hash o m1 /\ exists hs, fpart n op out hs /\ fwent hs (get m n) (get m1 n) (of_name n (fm_given out)) (of_name n (fm_lost out)).
  Proof.
    intros I O E ND. destruct op as [e k d f|ps f|k|force ord f|]; cbn [fm_do] in E.
    - destruct (ma_push_f _ _ _ _ _ _ _) as [[[[r l] w] m2]| |] eqn:P; cbn [bind] in E; try discriminate. injection E as <- <-.
      split; [exact (proj1 (push_f_sim _ _ _ _ _ _ _ _ _ I P))|].
      assert (Hw : forall b, r = Some b -> w = []) by (intros b ->; exact (proj2 (ma_push_back ne hash _ _ _ _ _ _ _ _ _ P))).
      destruct (push_fwent _ _ _ _ _ _ _ _ _ n I P) as [W|(-> & Hf & W)].
      + eexists. split; [left; reflexivity|]. destruct r as [b|]; [rewrite (Hw b eq_refl) in W; exact W|exact W].
      + exists []. split; [right; auto|exact W].
    - destruct (ma_multi_push_f _ _ _ _ _) as [[[[r l] w] m2]| |] eqn:P; cbn [bind] in E; try discriminate. injection E as <- <-.
      destruct (multi_fwent n _ _ _ _ _ _ _ I P) as (I1 & hs & A & C). split; [exact I1|]. exists hs. split; [exact A|].
      destruct r; [exact C|]. destruct (multi_f_back ne hash _ _ _ _ _ _ P) as [_ ->]. exact C.
    - destruct (ma_del _ _ _) as [[b m2]| |] eqn:D; cbn [bind] in E; try discriminate. injection E as <- <-.
      destruct (mdel_sim hash o m k b m2 I D) as (I1 & _ & _ & U). split; [exact I1|]. exists []. split; [reflexivity|]. rewrite U by congruence. apply fwent_nil.
    - destruct (ma_pushout_f _ _ _ _ _) as [[[[r l] w] m2]| |] eqn:P; cbn [bind] in E; try discriminate. injection E as <- <-.
      destruct (pushout_f_sim _ _ _ _ _ _ _ _ I O P) as (I1 & C & L). split; [exact I1|].
      assert (C' : fcell ne r force (get m n) (get m2 n) (of_name n (fm_given (if r then FmThrew l w else FmRecs l))) (of_name n (fm_lost (if r then FmThrew l w else FmRecs l)))).
      { destruct r; [exact (C n)|]. destruct w; [exact (C n)|cbn in L; lia]. }
      destruct (cell_fwent _ _ _ _ _ _ C') as [W|[Hr W]]; eexists; (split; [|exact W]); [left; reflexivity|right; subst r; auto].
    - injection E as <- <-. split; [exact I|]. exists []. split; [reflexivity|]. apply fwent_nil.
  Qed.
  Lemma run_fwent n : forall ops m outs m1, MInv hash o m -> Forall fm_order_ok ops -> fm_run ne hash m ops = Ok (outs, m1) -> ~ In (FmDel n) ops ->
    exists hs, fparts n ops outs hs /\ fwent hs (get m n) (get m1 n) (of_name n (flat_map fm_given outs)) (of_name n (flat_map fm_lost outs)).
  Proof.
    induction ops as [|op ops IH]; intros m outs m1 I O E ND; cbn [fm_run] in E.
    - injection E as <- <-. exists []. split; [constructor|apply fwent_nil].
    - inversion O; subst. destruct (fm_do _ _ _ _) as [[out m2]| |] eqn:D; cbn [bind] in E; try discriminate.
      destruct (fm_run _ _ _ _) as [[outs2 m3]| |] eqn:R; cbn [bind] in E; try discriminate. injection E as <- <-.
      destruct (do_fwent op m out m2 n I H1 D) as (I2 & h1 & P1 & W1); [intros ->; apply ND; left; auto|].
      destruct (IH _ _ _ I2 H2 R) as (h2 & P2 & W2); [intros J; apply ND; right; auto|].
      exists (h1 ++ h2). split; [constructor; auto|]. cbn [flat_map]. rewrite !of_name_app. eapply fwent_app; eauto.
  Qed.

  (** What the calls of one name are. *)
  Definition fsimple (h : fcall) : Prop := match h with (GoPush (SmRed _) true _ _, _) | (GoPop, None) | (GoForcePop, None) => True | _ => False end.
  Lemma fpush_simple n p f : Forall fsimple (fpush n p f).
  Proof. unfold fpush. destruct (name_eqb _ _); constructor; [exact Logic.I|constructor]. Qed.
  Lemma fpushes_simple n ps : Forall fsimple (flat_map (fun p => fpush n p None) ps).
  Proof. induction ps; cbn [flat_map]; [constructor|]. apply Forall_app. split; [apply fpush_simple|auto]. Qed.
  Lemma fpart_simple n op out hs : fpart n op out hs -> Forall fsimple hs.
  Proof.
    destruct op as [e k d f|ps f|k|force ord f|]; cbn [fpart].
    - intros [->|[-> _]]; [apply fpush_simple|constructor].
    - destruct (fm_threw out).
      + intros (p1 & p & p2 & x & -> & _ & [->|[-> _]]); [apply Forall_app; split; [apply fpushes_simple|apply fpush_simple]|apply fpushes_simple].
      + intros [->|(p1 & p & p2 & x & -> & _ & ->)]; [apply fpushes_simple|]. apply Forall_app. split; [apply fpushes_simple|]. apply Forall_app. split; [apply fpush_simple|apply fpushes_simple].
    - intros ->. constructor.
    - intros [->|[-> _]]; [|constructor]. constructor; [destruct force; exact Logic.I|constructor].
    - intros ->. constructor.
  Qed.
  Lemma fparts_simple n ops outs hs : fparts n ops outs hs -> Forall fsimple hs.
  Proof. induction 1; [constructor|]. apply Forall_app. split; [eapply fpart_simple; eauto|auto]. Qed.
  Lemma fparts_typed n ops outs hs : fparts n ops outs hs -> Forall fm_typed ops -> Forall fc_typed hs.
  Proof.
    assert (P : forall p f, gop_typed (GoPush (SmRed (snd (snd p))) true (pe_c1 (fst p)) (pe_c2 (fst p))) -> Forall fc_typed (fpush n p f))
      by (intros; unfold fpush; destruct (name_eqb _ _); constructor; [assumption|constructor]).
    assert (PS : forall ps, Forall (fun p : penv * (name * rdata) => gop_typed (GoPush (SmRed (snd (snd p))) true (pe_c1 (fst p)) (pe_c2 (fst p)))) ps -> Forall fc_typed (flat_map (fun p => fpush n p None) ps))
      by (induction 1; cbn [flat_map]; [constructor|]; apply Forall_app; auto).
    induction 1 as [|op out h ops outs hs A B IH]; intros T; [constructor|]. inversion T; subst. apply Forall_app. split; [|auto].
    destruct op as [e k d f|ps f|k|force ord f|]; cbn [fpart fm_typed] in *.
    - destruct A as [->|[-> _]]; [apply P; exact H1|constructor].
    - destruct (fm_threw out).
      + destruct A as (p1 & p & p2 & x & -> & _ & A). apply Forall_app in H1. destruct H1 as [H1 H3]. inversion H3; subst.
        destruct A as [->|[-> _]]; [apply Forall_app; auto|auto].
      + destruct A as [->|(p1 & p & p2 & x & -> & _ & ->)]; [auto|]. apply Forall_app in H1. destruct H1 as [H1 H3]. inversion H3; subst.
        apply Forall_app. split; [auto|]. apply Forall_app. auto.
    - subst. constructor.
    - destruct A as [->|[-> _]]; [|constructor]. constructor; [destruct force; exact Logic.I|constructor].
    - subst. constructor.
  Qed.
  Lemma freports_sum : forall hs g es g1, Forall fsimple hs -> gf_run ne g hs = Ok (es, g1) ->
    sum_count (flat_map f_reports es) = sum_count (gf_given es ++ gf_popped hs es ++ gf_lost es).
  Proof.
    induction hs as [|[op f] hs IH]; intros g es g1 S E; cbn [gf_run] in E; [injection E as <- <-; reflexivity|]. inversion S; subst.
    destruct (gf_call ne op f g) as [[r g2]| |] eqn:C; cbn [bind] in E; try discriminate. destruct (gf_run ne g2 hs) as [[es2 g3]| |] eqn:R; cbn [bind] in E; try discriminate.
    injection E as <- <-. specialize (IH _ _ _ H2 R). unfold gf_given, gf_popped, gf_lost in *. cbn [flat_map combine]. rewrite !sum_app in *. rewrite IH. clear IH R S H2.
    enough (W : sum_count (f_reports r) = sum_count match r with GRet o => out_handler o | GThrew recs _ => recs end +
      sum_count match op, r with GoPop, GRet o | GoForcePop, GRet o => match out_ptr o with Some a => [a] | None => [] end | _, _ => [] end +
      sum_count match r with GThrew _ l => l | GRet _ => [] end) by (destruct op, r; lia).
    destruct op; cbn [fsimple] in H1; try contradiction.
    - destruct x; try contradiction. destruct h; try contradiction. destruct r as [x|recs lost]; cbn [f_reports].
      + destruct (push_f_bool _ _ _ _ _ _ _ _ C) as [b Eb]. unfold reports. replace (out_ptr x) with (@None adata) by (rewrite Eb; reflexivity).
        rewrite app_nil_r, sum_no_perc. cbn. lia.
      + rewrite sum_app, sum_no_perc. cbn. lia.
    - destruct f; try contradiction. rewrite call_plain in C. cbn [g_call] in C. destruct (g_pop g) as [a g4]. injection C as <- _. cbn. unfold reports. cbn. destruct a; cbn; lia.
    - destruct f; try contradiction. rewrite call_plain in C. cbn [g_call] in C.
      destruct (g_force_pop ne g) as [[a g4]| |]; cbn [bind] in C; try discriminate. injection C as <- _. cbn. unfold reports. cbn. destruct a; cbn; lia.
  Qed.
  (** A push that failed has recorded no event. *)
  Lemma push_no_ag d i c1 c2 g recs lost g1 : gf_call ne (GoPush (SmRed d) true c1 c2) (Some (GfAg i)) g = Ok (GThrew recs lost, g1) -> False.
  Proof.
    cbn [gf_call]. unfold g_push_f. cbn [negb andb at_start]. destruct (g_enabled g); cbn [negb]; [|discriminate].
    destruct (s_put_f _ _ _ _ _ _ _ _) as [[[[b rs] ls] s]| |] eqn:P; cbn [bind]; try discriminate.
    destruct (g_finish_all _ _ _); cbn [bind]; try discriminate. destruct b; [discriminate|]. intros _.
    destruct (put_none ne _ _ _ _ _ (SmRed d) _ _ _ _ P) as [_ [(? & _)|[(? & _)|((? & ? & ?) & _)]]]; discriminate.
  Qed.
  Lemma events_accepted : forall hs g es g1, Forall fsimple hs -> gf_run ne g hs = Ok (es, g1) -> events (intakes true hs es) = accepted hs es.
  Proof.
    induction hs as [|[op f] hs IH]; intros g es g1 S E; cbn [gf_run] in E; [injection E as <- <-; reflexivity|]. inversion S; subst.
    destruct (gf_call ne op f g) as [[r g2]| |] eqn:C; cbn [bind] in E; try discriminate. destruct (gf_run ne g2 hs) as [[es2 g3]| |] eqn:R; cbn [bind] in E; try discriminate.
    injection E as <- <-. specialize (IH _ _ _ H2 R). unfold events, accepted in *. cbn [intakes app map fold_right combine fst snd].
    destruct op; cbn [fsimple] in H1; try contradiction; cbn [en_after].
    - destruct x; try contradiction. destruct h; try contradiction. rewrite IH. f_equal. unfold intake_of. cbn [fst snd].
      destruct r as [x|recs lost]; [destruct (out_bool x) as [[]|]; reflexivity|]. destruct f as [[]|]; try reflexivity. exfalso. eapply push_no_ag; eauto.
    - rewrite IH. reflexivity.
    - rewrite IH. reflexivity.
  Qed.
End Hist.
