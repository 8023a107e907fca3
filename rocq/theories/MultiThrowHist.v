(** Histories of a multi_aggregator whose handler throws, seen from one name. *)
From Coq Require Import ZArith List Bool Permutation Lia Arith Ascii.
From Verif Require Import Base ModelTypes ModelAvg ModelReducer SpecReducer ModelSeparator SpecSeparator SepProofs
  ModelAggregator SpecAggregator AggProofs AggRun AggFinal AggSafe ModelRegistry SpecRegistry RegProofs ModelMulti SpecMulti MultiProofs MultiRun
  ModelThrow SpecThrow ThrowProofs ThrowSys ModelMultiThrow SpecMultiThrow MultiThrowProofs MultiThrowRun.
Import ListNotations.
Local Open Scope Z_scope.

Section Hist.
  Variable ne : nat -> list Z -> list Z.
  Variable hash : name -> Z.
  Variable o : maopts.
  Notation get := (ma_get hash o).

  Lemma push_t_sim m e n d th r l m1 : MInv hash o m -> ma_push_t ne hash e n d th m = Ok (r, l, m1) ->
    MInv hash o m1 /\ exists g t g1,
      match get m n with Some g0 => g = g0 | None => agg_new (ma_agg o) (pe_clock e) (pe_rnd e) (ri_ts (rd_info d)) = Ok g end /\
      tg_push ne (SmRed d) (fun a => th n (no_perc a)) (pe_c1 e) (pe_c2 e) g = Ok (t, g1) /\
      l = map (fun a => (n, a)) (t_reports t) /\ update (get m) n (Some g1) (get m1) /\
      match t with TRet _ => r <> None | TThrew _ => r = None end.
  Proof.
    intros I E. unfold ma_push_t in E. rewrite (pos_ok hash o m n I) in E. cbn [bind] in E.
    destruct (shard_ok hash o m n I) as (s & E1 & E2 & E3). rewrite E2 in E. cbn [bind] in E.
    rewrite (mi_opt _ _ _ I) in E. destruct (bm_push_t _ _ _ _ _ _ _) as [[[r1 l1] b1]| |] eqn:P; cbn [bind] in E; try discriminate. injection E as <- <- <-.
    destruct (push_t_apart _ _ _ _ _ _ _ _ _ _ P) as (g & t & g1 & A & B & -> & -> & C).
    destruct (put_inv hash o m n s (bm_set n g1 s) I E1) as (J1 & J2).
    - rewrite bm_set_keys. pose proof (mi_nd _ _ _ I _ _ E1). destruct (bm_find n s) eqn:F; auto. constructor; auto. now apply bm_find_none.
    - intros k. rewrite bm_set_keys. destruct (bm_find n s); simpl; intuition.
    - intros k Hk. rewrite bm_set_find. destruct (name_eqb_spec n k); congruence.
    - split; auto. exists g, t, g1. split; [rewrite E3; exact A|]. split; [exact B|]. split; [reflexivity|].
      rewrite bm_set_find, name_eqb_refl in J2. split; [exact J2|]. destruct t; [destruct C as (b & -> & _); discriminate|tauto].
  Qed.
  Lemma pushout_t_sim m force ord th r l m1 : MInv hash o m -> (forall l, Permutation (ord l) l) -> ma_pushout_t ne th force ord m = Ok (r, l, m1) ->
    MInv hash o m1 /\ forall n, cell ne r force (get m n) (get m1 n) (of_name n l).
  Proof.
    intros I O E. unfold ma_pushout_t in E. destruct (ma_shards_t _ _ _ _ _) as [[[r1 l1] bs]| |] eqn:S; cbn [bind] in E; try discriminate. injection E as <- <- <-.
    destruct (shards_t_spec _ _ _ _ O _ _ _ _ (flat_nodup hash o m I) S) as (A1 & A2 & A3). split.
    - destruct I. constructor; cbn [mu_list mu_opt]; auto; [congruence| |].
      + intros i b H. destruct (nth_error (mu_list m) i) as [b0|] eqn:F; [|exfalso; apply nth_error_None in F; assert (i < length bs)%nat by (eapply nth_error_lt; eauto); lia].
        destruct (A3 _ _ F) as (b1 & B1 & B2 & _). assert (b1 = b) by congruence. subst b1. rewrite B2. eauto.
      + intros i b k H. destruct (nth_error (mu_list m) i) as [b0|] eqn:F; [|exfalso; apply nth_error_None in F; assert (i < length bs)%nat by (eapply nth_error_lt; eauto); lia].
        destruct (A3 _ _ F) as (b1 & B1 & B2 & _). assert (b1 = b) by congruence. subst b1. rewrite B2. eauto.
    - intros n. destruct (shard_ok hash o m n I) as (s & E1 & E2 & E3). destruct (A3 _ _ E1) as (b1 & B1 & B2 & B3 & B4).
      assert (G1 : get (mk_multi (mu_opt m) bs) n = bm_find n b1) by (unfold ma_get; cbn [mu_list]; now rewrite B1). rewrite G1, E3.
      destruct (in_dec (list_eq_dec ascii_dec) n (keys s)) as [J|J]; [apply B4, J|]. rewrite (B3 n J). right. rewrite (proj2 (bm_find_none n s)) by exact J.
      split; [reflexivity|]. split; [|auto]. apply A2. intros K. apply J. apply in_flat_map in K. destruct K as (b & K1 & K2). apply In_nth_error in K1. destruct K1 as (i & K1).
      assert (shard_of hash o n = i) by (eapply mi_key; eauto). subst i. assert (s = b) by congruence. subst b. exact K2.
  Qed.

  (** Nothing is ever queued. *)
  Lemma tpush_quiet d th c1 c2 g t g1 : quiet g -> tg_push ne (SmRed d) th c1 c2 g = Ok (t, g1) -> quiet g1.
  Proof.
    intros Q E. destruct t as [x|recs].
    - apply tred_back in E. eapply quiet_push; eauto.
    - destruct (push_threw ne _ _ _ _ _ _ _ (proj2 Q) E) as (_ & a & _ & _ & F). eapply quiet_force; eauto.
  Qed.
  Definition TQ (m : multi) : Prop := MInv hash o m /\ all_quiet (get m).
  Lemma cell_quiet r force c c' recs : (forall g, c = Some g -> quiet g) -> cell ne r force c c' recs -> forall g, c' = Some g -> quiet g.
  Proof.
    intros Q [(g & a & g' & -> & P & -> & _)|(-> & _)] g0 E; [|auto]. injection E as <-.
    eapply (quiet_popc ne force g); [auto|]. rewrite pop1_call, P. reflexivity.
  Qed.
  Lemma push_TQ m e n d th r l m1 : TQ m -> ma_push_t ne hash e n d th m = Ok (r, l, m1) -> TQ m1.
  Proof.
    intros [I Q] E. destruct (push_t_sim _ _ _ _ _ _ _ _ I E) as (I1 & g & t & g1 & A & B & _ & U & _). split; [exact I1|].
    refine (update_quiet _ _ _ _ Q _ U). intros g2 E2. injection E2 as <-. eapply tpush_quiet; [|exact B].
    destruct (get m n) as [g0|] eqn:F; [subst; eauto|]. eapply quiet_new; eauto.
  Qed.
  Lemma multi_TQ th : forall ps m r l m1, TQ m -> ma_multi_push_t ne hash ps th m = Ok (r, l, m1) -> TQ m1.
  Proof.
    induction ps as [|[e [n d]] ps IH]; intros m r l m1 Q E; cbn [ma_multi_push_t] in E; [injection E as _ _ <-; exact Q|].
    destruct (ma_push_t _ _ _ _ _ _ _) as [[[r1 l1] m2]| |] eqn:P; cbn [bind] in E; try discriminate. apply push_TQ in P; [|exact Q].
    destruct r1; [|injection E as _ _ <-; exact P]. destruct (ma_multi_push_t _ _ _ _ _) as [[[r2 l2] m3]| |] eqn:M; cbn [bind] in E; try discriminate.
    injection E as _ _ <-. eauto.
  Qed.
  Lemma do_TQ op m out m1 : TQ m -> tm_order_ok op -> tm_do ne hash op m = Ok (out, m1) -> TQ m1.
  Proof.
    intros Q O E. destruct op as [e n d th|ps th|n|force ord th|]; cbn [tm_do] in E.
    - destruct (ma_push_t _ _ _ _ _ _ _) as [[[r l] m2]| |] eqn:P; cbn [bind] in E; try discriminate. injection E as _ <-. eapply push_TQ; eauto.
    - destruct (ma_multi_push_t _ _ _ _ _) as [[[r l] m2]| |] eqn:P; cbn [bind] in E; try discriminate. injection E as _ <-. eapply multi_TQ; eauto.
    - destruct (ma_del _ _ _) as [[b m2]| |] eqn:D; cbn [bind] in E; try discriminate. injection E as _ <-. destruct Q as [I Q].
      destruct (mdel_sim hash o m n b m2 I D) as (I1 & _ & U). split; [exact I1|]. refine (update_quiet _ _ _ _ Q _ U). discriminate.
    - destruct (ma_pushout_t _ _ _ _ _) as [[[r l] m2]| |] eqn:P; cbn [bind] in E; try discriminate. injection E as _ <-. destruct Q as [I Q].
      destruct (pushout_t_sim _ _ _ _ _ _ _ I O P) as [I1 C]. split; [exact I1|]. intros n. eapply cell_quiet; [|apply C]. apply Q.
    - injection E as _ <-. exact Q.
  Qed.
  Lemma run_TQ : forall ops m outs m1, TQ m -> Forall tm_order_ok ops -> tm_run ne hash m ops = Ok (outs, m1) -> TQ m1.
  Proof.
    induction ops as [|op ops IH]; intros m outs m1 Q O E; cbn [tm_run] in E; [injection E as _ <-; exact Q|]. inversion O; subst.
    destruct (tm_do _ _ _ _) as [[out m2]| |] eqn:D; cbn [bind] in E; try discriminate. destruct (tm_run _ _ _ _) as [[outs2 m3]| |] eqn:R; cbn [bind] in E; try discriminate.
    injection E as _ <-. eapply IH; [eapply do_TQ; eauto|auto|exact R].
  Qed.
  Lemma TQ_new : (0 < ma_hash o)%nat -> TQ (ma_new o).
  Proof. intros H. split; [now apply MInv_new|]. intros n g. rewrite get_new. discriminate. Qed.
  Lemma TQ_shards m : TQ m -> forall b, In b (mu_list m) -> NoDup (keys b) /\ no_list b.
  Proof.
    intros [I Q] b H. apply In_nth_error in H. destruct H as (i & H). split; [eapply mi_nd; eauto|]. intros n g F. apply (Q n). unfold ma_get.
    assert (i = shard_of hash o n) by (eapply get_shard; eauto). subst i. now rewrite H.
  Qed.
  Lemma mpushout_retry m ord th l m2 l1 m1 : TQ m -> (forall l, Permutation (ord l) l) ->
    ma_pushout ne true true ord m = Ok (l, m2) -> ma_pushout_t ne th true ord m = Ok (true, l1, m1) ->
    exists l2, ma_pushout ne true true ord m1 = Ok (l2, m2) /\ l = l1 ++ l2.
  Proof.
    intros Q O E T. unfold ma_pushout, ma_pushout_t in *.
    destruct (ma_shards ne true true ord (mu_list m)) as [[la bs2]| |] eqn:S; cbn [bind] in E; try discriminate. injection E as <- <-.
    destruct (ma_shards_t _ _ _ _ _) as [[[r lb] bs1]| |] eqn:ST; cbn [bind] in T; try discriminate. injection T as -> <- <-.
    destruct (shards_retry ne th ord O _ _ _ _ _ (TQ_shards m Q) S ST) as (l2 & R & ->). exists l2. cbn [mu_list mu_opt]. rewrite R. auto.
  Qed.
  Lemma loop_t_silent th : forall ks b, NoDup (keys b) -> no_list b -> bm_loop_t ne th false ks b = Ok (false, [], b).
  Proof.
    induction ks as [|k ks IH]; intros b N Q; cbn [bm_loop_t]; auto. destruct (bm_find k b) as [g|] eqn:F; auto.
    rewrite quiet_pop by (eapply Q; eauto). cbn [bind]. rewrite bm_set_id by auto. auto.
  Qed.
  Lemma pushout_t_silent m ord th : TQ m -> ma_pushout_t ne th false ord m = Ok (false, [], m).
  Proof.
    intros Q. unfold ma_pushout_t. enough (G : ma_shards_t ne th false ord (mu_list m) = Ok (false, [], mu_list m)) by (rewrite G; destruct m; reflexivity).
    pose proof (TQ_shards m Q) as H. clear Q. induction (mu_list m) as [|b bs IH]; cbn [ma_shards_t]; auto. unfold bm_pushout_t.
    destruct (H b (or_introl eq_refl)) as [N Q]. rewrite loop_t_silent by auto. cbn [bind]. rewrite IH by (intros x Hx; apply H; right; auto). reflexivity.
  Qed.

  (** * One name *)
  Lemma t_run_app l1 : forall l2 g, t_run ne g (l1 ++ l2) =
    ('(o1, g1) <- t_run ne g l1 ;; '(o2, g2) <- t_run ne g1 l2 ;; Ok (o1 ++ o2, g2)).
  Proof.
    induction l1 as [|x l1 IH]; intros l2 g; simpl; [destruct (t_run ne g l2) as [[? ?]| |]; auto|].
    destruct (t_call ne x g) as [[r g1]| |]; cbn [bind]; auto. rewrite IH.
    destruct (t_run ne g1 l1) as [[o1 g2]| |]; cbn [bind]; auto. destruct (t_run ne g2 l2) as [[o2 g3]| |]; cbn [bind]; auto.
  Qed.
  Definition made (g0 : agg) : Prop := exists c rnd ts, agg_new (ma_agg o) c rnd ts = Ok g0.
  (** The aggregator of [n], if there is one, has gone on; if there was none, either there is still none and nothing was asked of it but
      pops, or it was made. *)
  Definition went (hs : list top) (c c' : option agg) (recs : list adata) : Prop :=
    match c with
    | Some g => exists rs g1, t_run ne g hs = Ok (rs, g1) /\ c' = Some g1 /\ recs = flat_map t_reports rs
    | None => (c' = None /\ recs = [] /\ Forall (fun h => exists f, h = TPlain (pop_call f)) hs) \/
              exists g0 rs g1, made g0 /\ t_run ne g0 hs = Ok (rs, g1) /\ c' = Some g1 /\ recs = flat_map t_reports rs
    end.
  Lemma idle_t g0 hs : made g0 -> Forall (fun h => exists f, h = TPlain (pop_call f)) hs -> exists rs, t_run ne g0 hs = Ok (rs, g0) /\ flat_map t_reports rs = [].
  Proof.
    intros (c & rnd & ts & E). induction 1 as [|h hs (f & ->) H (rs & C & R)]; simpl; eauto. rewrite (new_pop ne (ma_agg o) c rnd ts g0 f E). cbn [bind]. rewrite C. cbn [bind].
    eexists. split; eauto.
  Qed.
  Lemma went_app h1 h2 a b c r1 r2 : went h1 a b r1 -> went h2 b c r2 -> went (h1 ++ h2) a c (r1 ++ r2).
  Proof.
    intros W1 W2. destruct a as [g|]; cbn [went] in *.
    - destruct W1 as (rs & g1 & A & -> & ->). cbn [went] in W2. destruct W2 as (rs2 & g2 & B & -> & ->).
      exists (rs ++ rs2), g2. rewrite t_run_app, A. cbn [bind]. rewrite B. cbn [bind]. split; [reflexivity|]. split; [reflexivity|]. now rewrite flat_map_app.
    - destruct W1 as [(-> & -> & I1)|(g0 & rs & g1 & M & A & -> & ->)].
      + cbn [went] in W2. destruct W2 as [(-> & -> & I2)|(g0 & rs & g1 & M & A & -> & ->)].
        * left. split; [reflexivity|]. split; [reflexivity|]. now apply Forall_app.
        * right. destruct (idle_t g0 h1 M I1) as (rs0 & B & R0). exists g0, (rs0 ++ rs), g1. split; [exact M|]. rewrite t_run_app, B. cbn [bind]. rewrite A. cbn [bind].
          split; [reflexivity|]. split; [reflexivity|]. now rewrite flat_map_app, R0.
      + cbn [went] in W2. destruct W2 as (rs2 & g2 & B & -> & ->). right. exists g0, (rs ++ rs2), g2. split; [exact M|]. rewrite t_run_app, A. cbn [bind]. rewrite B. cbn [bind].
        split; [reflexivity|]. split; [reflexivity|]. now rewrite flat_map_app.
  Qed.
  Lemma went_nil c : went [] c c [].
  Proof. destruct c as [g|]; cbn; [exists [], g; auto|left; repeat split; constructor]. Qed.
  Lemma push_went e k d th m r l m1 n : MInv hash o m -> ma_push_t ne hash e k d th m = Ok (r, l, m1) ->
    went (push_part n th (e, (k, d))) (get m n) (get m1 n) (of_name n l).
  Proof.
    intros I E. destruct (push_t_sim _ _ _ _ _ _ _ _ I E) as (I1 & g & t & g1 & A & B & -> & [U1 U2] & _). unfold push_part. cbn [fst snd].
    destruct (name_eqb_spec n k) as [->|N].
    - pose proof (of_name_own (B := adata) k (fun x => x) (t_reports t)) as W. rewrite map_id in W. rewrite W, U1.
      destruct (get m k) as [g0|]; cbn [went].
      + subst g0. exists [t], g1. cbn [t_run t_call]. rewrite B. cbn [bind flat_map]. rewrite app_nil_r. auto.
      + right. exists g, [t], g1. split; [unfold made; eauto|]. cbn [t_run t_call]. rewrite B. cbn [bind flat_map]. rewrite app_nil_r. auto.
    - rewrite (of_name_other (B := adata) n k (fun x => x)), U2 by congruence. apply went_nil.
  Qed.
  Lemma multi_went th n : forall ps m r l m1, MInv hash o m -> ma_multi_push_t ne hash ps th m = Ok (r, l, m1) ->
    exists p1 p2, ps = p1 ++ p2 /\ (r = false -> p2 = []) /\ went (flat_map (push_part n th) p1) (get m n) (get m1 n) (of_name n l).
  Proof.
    induction ps as [|[e [k d]] ps IH]; intros m r l m1 I E; cbn [ma_multi_push_t] in E.
    - injection E as <- <- <-. exists [], []. split; [reflexivity|]. split; [auto|]. apply went_nil.
    - destruct (ma_push_t _ _ _ _ _ _ _) as [[[r1 l1] m2]| |] eqn:P; cbn [bind] in E; try discriminate.
      destruct (push_t_sim _ _ _ _ _ _ _ _ I P) as (I1 & _). apply (push_went _ _ _ _ _ _ _ _ n I) in P. destruct r1 as [b|].
      + destruct (ma_multi_push_t _ _ _ _ _) as [[[r2 l2] m3]| |] eqn:M; cbn [bind] in E; try discriminate. injection E as <- <- <-.
        destruct (IH _ _ _ _ I1 M) as (p1 & p2 & -> & R & W). exists ((e, (k, d)) :: p1), p2. split; [reflexivity|]. split; [exact R|].
        cbn [flat_map]. rewrite of_name_app. eapply went_app; eauto.
      + injection E as <- <- <-. exists [(e, (k, d))], ps. split; [reflexivity|]. split; [discriminate|]. cbn [flat_map]. rewrite app_nil_r. exact P.
  Qed.
  Lemma cell_went r force c c' recs : cell ne r force c c' recs ->
    went [TPlain (pop_call force)] c c' recs \/ r = true /\ went [] c c' recs.
  Proof.
    intros [(g & a & g' & -> & P & -> & ->)|(-> & -> & H)].
    - left. cbn [went]. exists [TRet (mk_sout None [] a)], g'. cbn [t_run t_call]. rewrite pop1_call, P. cbn [bind flat_map t_reports]. unfold reports. cbn. rewrite app_nil_r.
      destruct a; auto.
    - destruct H as [->| ->]; [right; split; [reflexivity|apply went_nil]|left; left; repeat split; auto]. constructor; [eauto|constructor].
  Qed.
  Lemma do_went op m out m1 n : MInv hash o m -> tm_order_ok op -> tm_do ne hash op m = Ok (out, m1) -> op <> TmDel n ->
    exists hs, part n op out hs /\ went hs (get m n) (get m1 n) (of_name n (tm_given out)).
  Proof.
    intros I O E ND. destruct op as [e k d th|ps th|k|force ord th|]; cbn [tm_do] in E.
    - destruct (ma_push_t _ _ _ _ _ _ _) as [[[r l] m2]| |] eqn:P; cbn [bind] in E; try discriminate. injection E as <- <-.
      eexists. split; [reflexivity|]. destruct r; exact (push_went _ _ _ _ _ _ _ _ n I P).
    - destruct (ma_multi_push_t _ _ _ _ _) as [[[r l] m2]| |] eqn:P; cbn [bind] in E; try discriminate. injection E as <- <-.
      destruct (multi_went th n _ _ _ _ _ I P) as (p1 & p2 & A & B & C). exists (flat_map (push_part n th) p1). split; [exists p1, p2; destruct r; auto|destruct r; exact C].
    - destruct (ma_del _ _ _) as [[b m2]| |] eqn:D; cbn [bind] in E; try discriminate. injection E as <- <-. exists []. split; [reflexivity|].
      destruct (mdel_sim hash o m k b m2 I D) as (_ & _ & _ & U). rewrite U by congruence. apply went_nil.
    - destruct (ma_pushout_t _ _ _ _ _) as [[[r l] m2]| |] eqn:P; cbn [bind] in E; try discriminate. injection E as <- <-.
      destruct (pushout_t_sim _ _ _ _ _ _ _ I O P) as [_ C]. destruct (cell_went _ _ _ _ _ (C n)) as [W|[-> W]]; eexists; (split; [|destruct r; exact W] || (split; [|exact W])); cbn; auto.
    - injection E as <- <-. exists []. split; [reflexivity|]. apply went_nil.
  Qed.
  Lemma run_went n : forall ops m outs m1, MInv hash o m -> Forall tm_order_ok ops -> tm_run ne hash m ops = Ok (outs, m1) -> ~ In (TmDel n) ops ->
    exists hs, parts n ops outs hs /\ went hs (get m n) (get m1 n) (of_name n (flat_map tm_given outs)).
  Proof.
    induction ops as [|op ops IH]; intros m outs m1 I O E ND; cbn [tm_run] in E.
    - injection E as <- <-. exists []. split; [constructor|apply went_nil].
    - inversion O; subst. destruct (tm_do _ _ _ _) as [[out m2]| |] eqn:D; cbn [bind] in E; try discriminate.
      destruct (tm_run _ _ _ _) as [[outs2 m3]| |] eqn:R; cbn [bind] in E; try discriminate. injection E as <- <-.
      destruct (do_went op m out m2 n I H1 D) as (h1 & P1 & W1); [intros ->; apply ND; left; auto|].
      assert (I2 : MInv hash o m2).
      { clear - I D H1. destruct op as [e k d th|ps th|k|force ord th|]; cbn [tm_do] in D.
        - destruct (ma_push_t _ _ _ _ _ _ _) as [[[r l] m3]| |] eqn:P; cbn [bind] in D; try discriminate. injection D as _ <-. exact (proj1 (push_t_sim _ _ _ _ _ _ _ _ I P)).
        - destruct (ma_multi_push_t _ _ _ _ _) as [[[r l] m3]| |] eqn:P; cbn [bind] in D; try discriminate. injection D as _ <-.
          revert m r l m3 I P. induction ps as [|[e [k d]] ps IH]; intros m r l m3 I P; cbn [ma_multi_push_t] in P; [injection P as _ _ <-; exact I|].
          destruct (ma_push_t _ _ _ _ _ _ _) as [[[r1 l1] m4]| |] eqn:P1; cbn [bind] in P; try discriminate. pose proof (proj1 (push_t_sim _ _ _ _ _ _ _ _ I P1)).
          destruct r1; [|injection P as _ _ <-; auto]. destruct (ma_multi_push_t _ _ _ _ _) as [[[r2 l2] m5]| |] eqn:M; cbn [bind] in P; try discriminate. injection P as _ _ <-. eauto.
        - destruct (ma_del _ _ _) as [[b m3]| |] eqn:X; cbn [bind] in D; try discriminate. injection D as _ <-. exact (proj1 (mdel_sim hash o m k b m3 I X)).
        - destruct (ma_pushout_t _ _ _ _ _) as [[[r l] m3]| |] eqn:P; cbn [bind] in D; try discriminate. injection D as _ <-. exact (proj1 (pushout_t_sim _ _ _ _ _ _ _ I H1 P)).
        - injection D as _ <-. exact I. }
      destruct (IH _ _ _ I2 H2 R) as (h2 & P2 & W2); [intros J; apply ND; right; auto|].
      exists (h1 ++ h2). split; [constructor; auto|]. cbn [flat_map]. rewrite of_name_app. eapply went_app; eauto.
  Qed.

  (** What the calls of one name are. *)
  Definition simple_call (h : top) : Prop := match h with TPush (SmRed _) _ _ _ | TPlain GoPop | TPlain GoForcePop => True | _ => False end.
  Lemma part_simple n op out hs : part n op out hs -> Forall simple_call hs.
  Proof.
    assert (P : forall th p, Forall simple_call (push_part n th p)) by (intros th p; unfold push_part; destruct (name_eqb _ _); [constructor; [exact Logic.I|constructor]|constructor]).
    destruct op; cbn [part].
    - intros ->. apply P.
    - intros (p1 & p2 & _ & -> & _). induction p1; cbn [flat_map]; [constructor|]. apply Forall_app. auto.
    - intros ->. constructor.
    - intros [->|[-> _]]; [|constructor]. constructor; [destruct force; exact Logic.I|constructor].
    - intros ->. constructor.
  Qed.
  Lemma parts_simple n ops outs hs : parts n ops outs hs -> Forall simple_call hs.
  Proof. induction 1; [constructor|]. apply Forall_app. split; [eapply part_simple; eauto|auto]. Qed.
  Lemma parts_typed n ops outs hs : parts n ops outs hs -> Forall tm_typed ops -> Forall t_typed hs.
  Proof.
    assert (P : forall th e k d, gop_typed (GoPush (SmRed d) true (pe_c1 e) (pe_c2 e)) -> Forall t_typed (push_part n th (e, (k, d))))
      by (intros; unfold push_part; cbn [fst snd]; destruct (name_eqb _ _); [constructor; [assumption|constructor]|constructor]).
    induction 1 as [|op out h ops outs hs A B IH]; intros T; [constructor|]. inversion T; subst. apply Forall_app. split; [|auto].
    destruct op; cbn [part tm_typed] in *.
    - subst. auto.
    - destruct A as (p1 & p2 & -> & -> & _). apply Forall_app in H1. destruct H1 as [H1 _]. clear T. induction H1 as [|[e [k d]] p1 Hx H1 IH1]; cbn [flat_map]; [constructor|].
      apply Forall_app. split; auto.
    - subst. constructor.
    - destruct A as [->|[-> _]]; [|constructor]. constructor; [destruct force; exact Logic.I|constructor].
    - subst. constructor.
  Qed.
  Lemma sum_app a b : sum_count (a ++ b) = sum_count a + sum_count b.
  Proof. unfold sum_count. induction a; cbn; [reflexivity|]. lia. Qed.
  Lemma sum_no_perc l : sum_count (map no_perc l) = sum_count l.
  Proof. unfold sum_count. induction l; cbn; [reflexivity|]. rewrite IHl. reflexivity. Qed.
  Lemma reports_sum : forall hs g rs g1, Forall simple_call hs -> t_run ne g hs = Ok (rs, g1) ->
    sum_count (flat_map t_reports rs) = sum_count (given rs) + sum_count (returned hs rs).
  Proof.
    induction hs as [|h hs IH]; intros g rs g1 S E; cbn [t_run] in E; [injection E as <- <-; reflexivity|]. inversion S; subst.
    destruct (t_call ne h g) as [[r g2]| |] eqn:C; cbn [bind] in E; try discriminate. destruct (t_run ne g2 hs) as [[rs2 g3]| |] eqn:R; cbn [bind] in E; try discriminate.
    injection E as <- <-. unfold given, returned. cbn [flat_map combine]. rewrite !sum_app. fold (given rs2). fold (returned hs rs2). rewrite (IH _ _ _ H2 R).
    enough (sum_count (t_reports r) = sum_count match r with TRet o => out_handler o | TThrew recs => recs end +
      sum_count match h, r with TPlain (GoPop | GoForcePop), TRet o => match out_ptr o with Some a => [a] | None => [] end | _, _ => [] end) by lia.
    destruct h as [op|x th c1 c2|]; cbn [simple_call] in H1; try contradiction.
    - destruct op; try contradiction; cbn [t_call g_call] in C.
      + destruct (g_pop g) as [a g4]. injection C as <- _. cbn. unfold reports. cbn. destruct a; cbn; lia.
      + destruct (g_force_pop ne g) as [[a g4]| |]; cbn [bind] in C; try discriminate. injection C as <- _. cbn. unfold reports. cbn. destruct a; cbn; lia.
    - destruct x; try contradiction. cbn [t_call] in C. destruct r as [x|recs]; cbn [t_reports].
      + destruct (push_bool _ _ _ _ _ _ _ _ C) as [b Eb]. unfold reports. replace (out_ptr x) with (@None adata) by (rewrite Eb; reflexivity).
        rewrite app_nil_r, sum_no_perc. cbn. lia.
      + rewrite sum_no_perc. cbn. lia.
  Qed.
End Hist.
