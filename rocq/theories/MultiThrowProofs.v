(** Facts about a multi_aggregator whose handler throws. *)
From Coq Require Import ZArith List Bool Permutation Lia Arith Ascii.
From Verif Require Import Base ModelTypes ModelAvg ModelReducer SpecReducer ModelSeparator SpecSeparator SepProofs
  ModelAggregator SpecAggregator AggProofs AggRun AggFinal AggSafe ModelRegistry SpecRegistry RegProofs ModelMulti SpecMulti MultiProofs MultiRun
  ModelThrow SpecThrow ThrowProofs ThrowSys ModelMultiThrow SpecMultiThrow.
Import ListNotations.
Local Open Scope Z_scope.

Lemma bm_set_set n g2 g1 b : bm_set n g2 (bm_set n g1 b) = bm_set n g2 b.
Proof.
  unfold bm_set at 1. rewrite bm_set_find, name_eqb_refl. unfold bm_set. destruct (bm_find n b) as [g|] eqn:F.
  - rewrite map_map. apply map_ext. intros [k v]. cbn [fst]. destruct (name_eqb_spec n k) as [->|N]; cbn [fst].
    + now rewrite name_eqb_refl.
    + destruct (name_eqb_spec n k); congruence.
  - cbn [map fst]. rewrite name_eqb_refl. f_equal. rewrite <- (map_id b) at 2. apply map_ext_in. intros [k v] H. cbn [fst].
    destruct (name_eqb_spec n k) as [->|N]; auto. exfalso. apply bm_find_none in F. apply F. change k with (fst (k, v)). now apply in_map.
Qed.
Lemma ma_put_put i b2 b1 m : ma_put i b2 (ma_put i b1 m) = ma_put i b2 m.
Proof. unfold ma_put. cbn [mu_list mu_opt]. now rewrite (@set_set bmulti). Qed.

Section Nth.
  Variable ne : nat -> list Z -> list Z.
  Variable hash : name -> Z.

  (** * The handler *)
  Lemma push_bool x th c1 c2 g o g' : tg_push ne x th c1 c2 g = Ok (TRet o, g') -> exists b, o = mk_sout (Some b) (out_handler o) None.
  Proof.
    intros E. assert (X : not_list x) by (destruct x; cbn in E; try discriminate; exact Logic.I).
    rewrite tg_push_eq in E by exact X. unfold g_push_t in E.
    destruct (g_enabled g); cbn [negb] in E; [|injection E as <- _; exists true; reflexivity].
    destruct (s_put_t _ _ _ _ _ _ _) as [[[b rs] s]| |]; cbn [bind] in E; try discriminate.
    destruct (g_finish_all _ _ _); cbn [bind] in E; try discriminate. destruct b as [b|]; [|discriminate].
    injection E as <- _. exists b. reflexivity.
  Qed.
  (** A push, taken apart. *)
  Lemma push_t_apart o e n d th m r l m1 : bm_push_t ne o e n d th m = Ok (r, l, m1) ->
    exists g t g1, match bm_find n m with Some g0 => g = g0 | None => agg_new o (pe_clock e) (pe_rnd e) (ri_ts (rd_info d)) = Ok g end /\
      tg_push ne (SmRed d) (fun a => th n (no_perc a)) (pe_c1 e) (pe_c2 e) g = Ok (t, g1) /\ m1 = bm_set n g1 m /\
      l = map (fun a => (n, a)) (t_reports t) /\
      match t with
      | TRet o => exists b, r = Some b /\ o = mk_sout (Some b) (out_handler o) None /\ forall a, In a (out_handler o) -> th n (no_perc a) = false
      | TThrew _ => r = None /\ exists a, t = TThrew [a] /\ th n (no_perc a) = true
      end.
  Proof.
    unfold bm_push_t. intros E.
    destruct (match bm_find n m with Some g => Ok g | None => _ end) as [g| |] eqn:G; cbn [bind] in E; try discriminate.
    destruct (tg_push ne _ _ _ _ g) as [[t g1]| |] eqn:T; cbn [bind] in E; try discriminate. injection E as <- <- <-.
    exists g, t, g1. split; [destruct (bm_find n m); congruence|]. split; [exact T|]. split; [reflexivity|].
    destruct t as [x|recs].
    - destruct (push_bool _ _ _ _ _ _ _ T) as [b Eb]. split.
      + assert (Np : out_ptr x = None) by (rewrite Eb; reflexivity). unfold t_reports, reports. rewrite Np, app_nil_r, map_map. reflexivity.
      + exists b. split; [now rewrite Eb|]. split; [exact Eb|]. exact (push_ret _ _ _ _ _ _ _ _ T).
    - split; [unfold t_reports; now rewrite map_map|]. split; [reflexivity|].
      destruct (push_threw_one _ _ _ _ _ _ _ _ T) as (a & -> & Ta). eauto.
  Qed.
  Definition tends (th : name -> adata -> bool) (b : bool) (l : list (name * adata)) : Prop :=
    if b then exists l1 q, l = l1 ++ [q] /\ th (fst q) (snd q) = true /\ Forall (fun q => th (fst q) (snd q) = false) l1
    else Forall (fun q => th (fst q) (snd q) = false) l.
  Lemma tends_app th b l m : Forall (fun q => th (fst q) (snd q) = false) l -> tends th b m -> tends th b (l ++ m).
  Proof.
    intros H. destruct b; cbn.
    - intros (l1 & q & -> & A & B). exists (l ++ l1), q. split; [now rewrite app_assoc|]. split; [exact A|]. now apply Forall_app.
    - intros A. now apply Forall_app.
  Qed.
  Lemma bm_push_ends o e n d th m r l m1 : bm_push_t ne o e n d th m = Ok (r, l, m1) ->
    tends th (match r with None => true | Some _ => false end) l.
  Proof.
    intros E. destruct (push_t_apart _ _ _ _ _ _ _ _ _ E) as (g & t & g1 & _ & _ & _ & -> & T). destruct t as [x|recs].
    - destruct T as (b & -> & Ex & Q). assert (Np : out_ptr x = None) by (rewrite Ex; reflexivity). cbn [tends t_reports]. unfold reports. rewrite Np, app_nil_r, map_map. apply Forall_forall. intros [k a] I.
      apply in_map_iff in I. destruct I as (a0 & E0 & I0). injection E0 as <- <-. cbn. auto.
    - destruct T as (-> & a & Ea & Ta). injection Ea as ->. cbn. exists [], (n, no_perc a). split; [reflexivity|]. split; [exact Ta|constructor].
  Qed.
  Lemma push_t_ends e n d th m r l m1 : ma_push_t ne hash e n d th m = Ok (r, l, m1) -> tends th (match r with None => true | Some _ => false end) l.
  Proof.
    unfold ma_push_t. destruct (ma_pos _ _ _) as [i| |]; cbn [bind]; try discriminate. destruct (ma_shard _ _) as [b| |]; cbn [bind]; try discriminate.
    destruct (bm_push_t _ _ _ _ _ _ _) as [[[r1 l1] b1]| |] eqn:E; cbn [bind]; try discriminate. intros H; injection H as <- <- _.
    exact (bm_push_ends _ _ _ _ _ _ _ _ _ E).
  Qed.
  Lemma multi_t_ends th : forall ps m r l m1, ma_multi_push_t ne hash ps th m = Ok (r, l, m1) -> tends th r l.
  Proof.
    induction ps as [|[e [n d]] ps IH]; intros m r l m1 E; cbn [ma_multi_push_t] in E; [injection E as <- <- _; constructor|].
    destruct (ma_push_t _ _ _ _ _ _ _) as [[[r1 l1] m2]| |] eqn:P; cbn [bind] in E; try discriminate. apply push_t_ends in P.
    destruct r1 as [b1|]; [|injection E as <- <- _; exact P].
    destruct (ma_multi_push_t _ _ _ _ _) as [[[r2 l2] m3]| |] eqn:Q; cbn [bind] in E; try discriminate. injection E as <- <- _.
    apply tends_app; [exact P|]. eapply IH; eauto.
  Qed.
  Lemma loop_t_ends th force : forall ks m r l m1, bm_loop_t ne th force ks m = Ok (r, l, m1) -> tends th r l.
  Proof.
    induction ks as [|k ks IH]; intros m r l m1 E; cbn [bm_loop_t] in E; [injection E as <- <- _; constructor|].
    destruct (bm_find k m) as [g|]; [|eauto]. destruct (if force then _ else _) as [[a g1]| |]; cbn [bind] in E; try discriminate.
    destruct a as [x|]; [|eauto]. destruct (th k x) eqn:T.
    - injection E as <- <- _. exists [], (k, x). split; [reflexivity|]. split; [exact T|constructor].
    - destruct (bm_loop_t _ _ _ _ _) as [[[b l2] m2]| |] eqn:L; cbn [bind] in E; try discriminate. injection E as <- <- _.
      apply (tends_app th b [(k, x)]); [constructor; [exact T|constructor]|]. eauto.
  Qed.
  Lemma shards_t_ends th force ord : forall bs r l bs1, ma_shards_t ne th force ord bs = Ok (r, l, bs1) -> tends th r l.
  Proof.
    induction bs as [|b bs IH]; intros r l bs1 E; cbn [ma_shards_t] in E; [injection E as <- <- _; constructor|].
    unfold bm_pushout_t in E. destruct (bm_loop_t _ _ _ _ _) as [[[r1 l1] b1]| |] eqn:L; cbn [bind] in E; try discriminate. apply loop_t_ends in L.
    destruct r1; [injection E as <- <- _; exact L|].
    destruct (ma_shards_t _ _ _ _ _) as [[[r2 l2] t1]| |] eqn:S; cbn [bind] in E; try discriminate. injection E as <- <- _.
    apply tends_app; [exact L|]. eauto.
  Qed.
  Lemma do_ends op m out m1 : tm_do ne hash op m = Ok (out, m1) -> ends_at_throw op out.
  Proof.
    intros E. destruct op as [e n d th|ps th|n|force ord th|]; cbn [tm_do] in E.
    - destruct (ma_push_t _ _ _ _ _ _ _) as [[[r l] m2]| |] eqn:P; cbn [bind] in E; try discriminate. injection E as <- _.
      apply push_t_ends in P. destruct r; exact P.
    - destruct (ma_multi_push_t _ _ _ _ _) as [[[r l] m2]| |] eqn:P; cbn [bind] in E; try discriminate. injection E as <- _.
      apply multi_t_ends in P. destruct r; exact P.
    - destruct (ma_del _ _ _) as [[b m2]| |]; cbn [bind] in E; try discriminate. injection E as <- _. constructor.
    - unfold ma_pushout_t in E. destruct (ma_shards_t _ _ _ _ _) as [[[r l] bs]| |] eqn:P; cbn [bind] in E; try discriminate. injection E as <- _.
      apply shards_t_ends in P. destruct r; exact P.
    - injection E as <- _. constructor.
  Qed.

  (** * Without exceptions *)
  Definition never (th : name -> adata -> bool) (l : list (name * adata)) : Prop := Forall (fun q => th (fst q) (snd q) = false) l.
  Lemma bm_push_quiet o e n d th m b l m1 : bm_push ne o e n d true m = Ok (b, l, m1) -> never th l ->
    bm_push_t ne o e n d th m = Ok (Some b, l, m1).
  Proof.
    unfold bm_push, bm_push_t. destruct (match bm_find n m with Some g => Ok g | None => _ end) as [g| |]; cbn [bind]; try discriminate.
    destruct (g_push_red _ _ _ _ _ _) as [[[r recs] g1]| |] eqn:P; cbn [bind]; try discriminate. intros E Q. injection E as <- <- <-.
    rewrite (push_quiet ne (SmRed d) _ _ _ _ (mk_sout (Some r) recs None) g1 Logic.I).
    - reflexivity.
    - cbn [g_call]. rewrite P. reflexivity.
    - intros a I. exact (proj1 (Forall_forall _ _) Q (n, only_reduced a) (in_map (fun a => (n, only_reduced a)) _ _ I)).
  Qed.
  Lemma push_t_quiet e n d th m b l m1 : ma_push ne hash e n d true m = Ok (b, l, m1) -> never th l ->
    ma_push_t ne hash e n d th m = Ok (Some b, l, m1).
  Proof.
    unfold ma_push, ma_push_t. destruct (ma_pos _ _ _) as [i| |]; cbn [bind]; try discriminate. destruct (ma_shard _ _) as [s| |]; cbn [bind]; try discriminate.
    destruct (bm_push _ _ _ _ _ _ _) as [[[r1 l1] b1]| |] eqn:E; cbn [bind]; try discriminate. intros H Q; injection H as <- <- <-.
    now rewrite (bm_push_quiet _ _ _ _ _ _ _ _ _ E Q).
  Qed.
  Lemma multi_b ps h : forall m b l m1, ma_multi_push ne hash ps h m = Ok (b, l, m1) -> b = true.
  Proof.
    induction ps as [|[e [n d]] ps IH]; intros m b l m1 E; cbn [ma_multi_push] in E; [congruence|].
    destruct (ma_push _ _ _ _ _ _ _) as [[[? ?] m2]| |]; cbn [bind] in E; try discriminate.
    destruct (ma_multi_push _ _ _ _ m2) as [[[? ?] ?]| |] eqn:Q; cbn [bind] in E; try discriminate. injection E as <- _ _. eauto.
  Qed.
  Lemma multi_t_quiet th : forall ps m b l m1, ma_multi_push ne hash ps true m = Ok (b, l, m1) -> never th l ->
    ma_multi_push_t ne hash ps th m = Ok (false, l, m1).
  Proof.
    induction ps as [|[e [n d]] ps IH]; intros m b l m1 E Q; cbn [ma_multi_push ma_multi_push_t] in *; [injection E as _ <- <-; reflexivity|].
    destruct (ma_push _ _ _ _ _ _ _) as [[[r1 l1] m2]| |] eqn:P; cbn [bind] in E; try discriminate.
    destruct (ma_multi_push _ _ _ _ _) as [[[r2 l2] m3]| |] eqn:M; cbn [bind] in E; try discriminate. injection E as _ <- <-.
    apply Forall_app in Q. destruct Q as [Q1 Q2]. rewrite (push_t_quiet _ _ _ _ _ _ _ _ P Q1). cbn [bind].
    rewrite (IH _ _ _ _ M Q2). reflexivity.
  Qed.
  Lemma loop_t_quiet th force : forall ks m l m1, bm_loop ne force true ks m = Ok (l, m1) -> never th l ->
    bm_loop_t ne th force ks m = Ok (false, l, m1).
  Proof.
    induction ks as [|k ks IH]; intros m l m1 E Q; cbn [bm_loop bm_loop_t] in *; [injection E as <- <-; reflexivity|].
    destruct (bm_find k m) as [g|]; [|auto]. destruct (if force then _ else _) as [[a g1]| |]; cbn [bind] in *; try discriminate.
    destruct a as [x|]; cbn [bind] in E; destruct (bm_loop _ _ _ _ _) as [[l2 m2]| |] eqn:L; cbn [bind] in E; try discriminate; injection E as <- <-.
    - inversion Q; subst. cbn in H1. rewrite H1, (IH _ _ _ L H2). reflexivity.
    - exact (IH _ _ _ L Q).
  Qed.
  Lemma shards_t_quiet th force ord : forall bs l bs1, ma_shards ne force true ord bs = Ok (l, bs1) -> never th l ->
    ma_shards_t ne th force ord bs = Ok (false, l, bs1).
  Proof.
    induction bs as [|b bs IH]; intros l bs1 E Q; cbn [ma_shards ma_shards_t] in *; [injection E as <- <-; reflexivity|].
    unfold bm_pushout, bm_pushout_t in *. destruct (bm_loop _ _ _ _ _) as [[l1 b1]| |] eqn:L; cbn [bind] in E; try discriminate.
    destruct (ma_shards _ _ _ _ _) as [[l2 t1]| |] eqn:S; cbn [bind] in E; try discriminate. injection E as <- <-.
    apply Forall_app in Q. destruct Q as [Q1 Q2]. rewrite (loop_t_quiet _ _ _ _ _ _ L Q1). cbn [bind]. rewrite (IH _ _ eq_refl Q2). reflexivity.
  Qed.
  Lemma do_quiet op m out m1 : ma_do ne hash (tm_plain op) m = Ok (out, m1) -> Forall (fun q => tm_th op q = false) (mrecs out) ->
    tm_do ne hash op m = Ok (no_throw out, m1).
  Proof.
    intros E Q. destruct op as [e n d th|ps th|n|force ord th|]; cbn [tm_plain ma_do tm_do] in *.
    - destruct (ma_push _ _ _ _ _ _ _) as [[[r l] m2]| |] eqn:P; cbn [bind] in E; try discriminate. injection E as <- <-.
      rewrite (push_t_quiet _ _ _ th _ _ _ _ P Q). reflexivity.
    - destruct (ma_multi_push _ _ _ _ _) as [[[r l] m2]| |] eqn:P; cbn [bind] in E; try discriminate. injection E as <- <-.
      rewrite (multi_t_quiet th _ _ _ _ _ P Q), (multi_b _ _ _ _ _ _ P). reflexivity.
    - destruct (ma_del _ _ _) as [[b m2]| |]; cbn [bind] in *; try discriminate. injection E as <- <-. reflexivity.
    - unfold ma_pushout, ma_pushout_t in *. destruct (ma_shards _ _ _ _ _) as [[l bs]| |] eqn:P; cbn [bind] in E; try discriminate. injection E as <- <-.
      rewrite (shards_t_quiet th _ _ _ _ _ P Q). reflexivity.
    - injection E as <- <-. reflexivity.
  Qed.

  (** And back: a part that did not throw did what it does with a handler that never throws. *)
  Lemma loop_t_back th force : forall ks m l m1, bm_loop_t ne th force ks m = Ok (false, l, m1) -> bm_loop ne force true ks m = Ok (l, m1).
  Proof.
    induction ks as [|k ks IH]; intros m l m1 E; cbn [bm_loop bm_loop_t] in *; [injection E as <- <-; reflexivity|].
    destruct (bm_find k m) as [g|]; [|auto]. destruct (if force then _ else _) as [[a g1]| |]; cbn [bind] in *; try discriminate.
    destruct a as [x|]; cbn [bind].
    - destruct (th k x); [discriminate|]. destruct (bm_loop_t _ _ _ _ _) as [[[b l2] m2]| |] eqn:L; cbn [bind] in E; try discriminate.
      injection E as -> <- <-. rewrite (IH _ _ _ L). reflexivity.
    - rewrite (IH _ _ _ E). reflexivity.
  Qed.
  Lemma tred_back d th c1 c2 g x g1 : tg_push ne (SmRed d) th c1 c2 g = Ok (TRet x, g1) -> g_call ne (GoPush (SmRed d) true c1 c2) g = Ok (x, g1).
  Proof.
    intros T. cbn [tg_push] in T. unfold g_push_t in T. cbn [g_call]. unfold g_push_red, g_push_with.
    destruct (g_enabled g); cbn [negb] in *; [|injection T as <- <-; reflexivity].
    destruct (s_put_t _ _ _ _ _ _ _) as [[[b1 rs] s]| |] eqn:Ep; cbn [bind] in T; try discriminate.
    destruct (g_finish_all ne (g_out g) rs) as [ds| |] eqn:Ef; cbn [bind] in T; try discriminate. destruct b1 as [b|]; [|discriminate].
    injection T as <- <-. unfold s_push_red.
    assert (EP : s_put ne c1 c2 (ri_ts (rd_info d)) true (r_add_red d) (g_sep g) = Ok (b, rs, s)).
    { clear - Ep. unfold s_put_t, s_put in *. destruct (get_ts _ _ _ _) as [t0| |]; cbn [bind] in *; try discriminate.
      destruct (s_separate_t ne c2 t0 _ false (g_sep g)) as [[[b1 rc] s2]| |] eqn:Es; cbn [bind] in *; try discriminate.
      destruct b1 as [b1|]; [|discriminate].
      assert (ES : exists b', s_separate ne c2 t0 true false (g_sep g) = Ok (b', rc, s2)).
      { clear - Es. unfold s_separate_t, s_separate in *. destruct (get_ts _ _ _ _) as [t1| |]; cbn [bind] in *; try discriminate.
        destruct (negb false && _); [injection Es as _ <- <-; eauto|].
        destruct (sep_loop_t _ _ _ _ _ _ _) as [[[[rr bb] r2] n2]| |] eqn:EL; cbn [bind] in *; try discriminate.
        destruct bb; [discriminate|]. injection Es as _ <- <-. rewrite (ThrowProofs.loop_t_back ne _ _ _ _ _ _ _ _ _ EL). cbn [bind].
        rewrite app_nil_r. eauto. }
      destruct ES as [b' ->]. cbn [bind]. destruct (chk _); cbn [bind] in *; try discriminate.
      destruct (_ <? _); injection Ep as <- <- <-; reflexivity. }
    rewrite EP. cbn [bind]. rewrite Ef. reflexivity.
  Qed.
  Lemma bm_push_back o e n d th m b l m1 : bm_push_t ne o e n d th m = Ok (Some b, l, m1) -> bm_push ne o e n d true m = Ok (b, l, m1).
  Proof.
    unfold bm_push, bm_push_t. destruct (match bm_find n m with Some g => Ok g | None => _ end) as [g| |]; cbn [bind]; try discriminate.
    destruct (tg_push ne _ _ _ _ g) as [[t g1]| |] eqn:T; cbn [bind]; try discriminate. destruct t as [x|recs]; [|discriminate].
    intros E. injection E as Eb <- <-. apply tred_back in T. cbn [g_call] in T.
    destruct (g_push_red ne (pe_c1 e) (pe_c2 e) d true g) as [[[b' rc] g2]| |]; cbn [bind] in T; try discriminate. injection T as <- <-.
    cbn [out_bool] in Eb. injection Eb as ->. reflexivity.
  Qed.
  Lemma push_t_back e n d th m b l m1 : ma_push_t ne hash e n d th m = Ok (Some b, l, m1) -> ma_push ne hash e n d true m = Ok (b, l, m1).
  Proof.
    unfold ma_push, ma_push_t. destruct (ma_pos _ _ _) as [i| |]; cbn [bind]; try discriminate. destruct (ma_shard _ _) as [s| |]; cbn [bind]; try discriminate.
    destruct (bm_push_t _ _ _ _ _ _ _) as [[[r1 l1] b1]| |] eqn:E; cbn [bind]; try discriminate. intros H; injection H as -> <- <-.
    now rewrite (bm_push_back _ _ _ _ _ _ _ _ _ E).
  Qed.

  (** * A push repeated *)
  Lemma push_t_threw_retry o e n d th m b l m2 l1 m1 : bm_push ne o e n d true m = Ok (b, l, m2) -> bm_push_t ne o e n d th m = Ok (None, l1, m1) ->
    l1 = l /\ bm_push ne o e n d true m1 = Ok (b, [], m2).
  Proof.
    intros E T. destruct (push_t_apart _ _ _ _ _ _ _ _ _ T) as (g & t & g1 & F & P & -> & -> & R). destruct t as [x|recs].
    { destruct R as (b0 & R & _). discriminate. }
    destruct R as (_ & a & Ea & Ta). injection Ea as ->. unfold bm_push in *.
    assert (G : match bm_find n m with Some g => Ok g | None => agg_new o (pe_clock e) (pe_rnd e) (ri_ts (rd_info d)) end = Ok g) by (destruct (bm_find n m); congruence).
    rewrite G in E. cbn [bind] in E. destruct (g_push_red _ _ _ _ _ _) as [[[r recs] g2]| |] eqn:Q; cbn [bind] in E; try discriminate. injection E as -> <- <-.
    assert (Q0 : g_call ne (GoPush (SmRed d) true (pe_c1 e) (pe_c2 e)) g = Ok (mk_sout (Some b) recs None, g2)) by (cbn [g_call]; rewrite Q; reflexivity).
    split.
    - destruct recs as [|x recs].
      + rewrite (push_quiet ne (SmRed d) (fun a => th n (no_perc a)) _ _ _ _ _ Logic.I Q0) in P by (intros ? []). discriminate.
      + destruct (push_loud ne (SmRed d) (fun a => th n (no_perc a)) _ _ _ _ _ x Logic.I Q0 (or_introl eq_refl)) as [Hx H]. cbn [out_handler] in Hx. injection Hx as ->.
        destruct (th n (no_perc x)) eqn:Tx.
        * destruct (H eq_refl) as (g3 & P3). rewrite P3 in P. injection P as -> _. reflexivity.
        * rewrite (push_quiet ne (SmRed d) (fun a => th n (no_perc a)) _ _ _ _ _ Logic.I Q0) in P by (intros ? [<-|[]]; exact Tx). discriminate.
    - rewrite bm_set_find, name_eqb_refl. cbn [bind]. pose proof (push_retry ne _ _ _ _ _ _ _ _ _ Q0 P) as H. cbn [g_call out_bool] in H.
      destruct (g_push_red ne (pe_c1 e) (pe_c2 e) d true g1) as [[[r3 rc3] g3]| |]; cbn [bind] in H; try discriminate. injection H as -> -> ->.
      cbn [bind map]. now rewrite bm_set_set.
  Qed.
  Lemma mpush_retry e n d th m b l m2 l1 m1 : ma_push ne hash e n d true m = Ok (b, l, m2) -> ma_push_t ne hash e n d th m = Ok (None, l1, m1) ->
    l1 = l /\ ma_push ne hash e n d true m1 = Ok (b, [], m2).
  Proof.
    unfold ma_push, ma_push_t. destruct (ma_pos hash n m) as [i| |] eqn:Ei; cbn [bind]; try discriminate.
    unfold ma_shard at 1 2. destruct (nth_error (mu_list m) i) as [s|] eqn:Es; cbn [bind]; try discriminate.
    destruct (bm_push _ _ _ _ _ _ _) as [[[r1 la] b1]| |] eqn:E; cbn [bind]; try discriminate. intros H; injection H as -> -> <-.
    destruct (bm_push_t _ _ _ _ _ _ _) as [[[r2 lb] b2]| |] eqn:T; cbn [bind]; try discriminate. intros H; injection H as -> -> <-.
    destruct (push_t_threw_retry _ _ _ _ _ _ _ _ _ _ _ E T) as [-> R]. split; [reflexivity|].
    replace (ma_pos hash n (ma_put i b2 m)) with (ma_pos hash n m) by reflexivity. rewrite Ei. cbn [bind].
    assert (Lt : (i < length (mu_list m))%nat) by (apply nth_error_Some; congruence).
    unfold ma_shard, ma_put at 1. cbn [mu_list]. rewrite set_nth_same by exact Lt. cbn [bind]. cbn [ma_put mu_opt]. rewrite R. cbn [bind].
    f_equal. f_equal. apply ma_put_put.
  Qed.
  (** multi_push: one push after another until one throws. *)
  Lemma multi_t_split th : forall ps m l m1, ma_multi_push_t ne hash ps th m = Ok (true, l, m1) ->
    exists p1 e n d p2 l0 m0 lx, ps = p1 ++ (e, (n, d)) :: p2 /\ ma_multi_push ne hash p1 true m = Ok (true, l0, m0) /\
      ma_push_t ne hash e n d th m0 = Ok (None, lx, m1) /\ l = l0 ++ lx.
  Proof.
    induction ps as [|[e [n d]] ps IH]; intros m l m1 E; cbn [ma_multi_push_t] in E; [discriminate|].
    destruct (ma_push_t _ _ _ _ _ _ _) as [[[r1 l1] m2]| |] eqn:P; cbn [bind] in E; try discriminate. destruct r1 as [b|].
    - destruct (ma_multi_push_t _ _ _ _ _) as [[[r2 l2] m3]| |] eqn:M; cbn [bind] in E; try discriminate. injection E as -> <- <-.
      destruct (IH _ _ _ M) as (p1 & e' & n' & d' & p2 & l0 & m0 & lx & -> & A & B & ->).
      exists ((e, (n, d)) :: p1), e', n', d', p2, (l1 ++ l0), m0, lx. split; [reflexivity|]. split; [|split; [exact B|now rewrite app_assoc]].
      cbn [ma_multi_push]. rewrite (push_t_back _ _ _ _ _ _ _ _ P). cbn [bind]. rewrite A. reflexivity.
    - injection E as <- <-. exists [], e, n, d, ps, [], m, l1. auto.
  Qed.
  Lemma multi_app h : forall p1 p2 m, ma_multi_push ne hash (p1 ++ p2) h m =
    ('(_, l1, m1) <- ma_multi_push ne hash p1 h m ;; '(b, l2, m2) <- ma_multi_push ne hash p2 h m1 ;; Ok (b, l1 ++ l2, m2)).
  Proof.
    induction p1 as [|[e [n d]] p1 IH]; intros p2 m; cbn [app ma_multi_push bind].
    - destruct (ma_multi_push ne hash p2 h m) as [[[? ?] ?]| |]; reflexivity.
    - destruct (ma_push _ _ _ _ _ _ _) as [[[? l1] m1]| |]; cbn [bind]; try reflexivity. rewrite IH.
      destruct (ma_multi_push ne hash p1 h m1) as [[[? l2] m2]| |]; cbn [bind]; try reflexivity.
      destruct (ma_multi_push ne hash p2 h m2) as [[[? l3] m3]| |]; cbn [bind]; try reflexivity. now rewrite app_assoc.
  Qed.
  Lemma multi_retry th ps m l m2 l1 m1 : ma_multi_push ne hash ps true m = Ok (true, l, m2) -> ma_multi_push_t ne hash ps th m = Ok (true, l1, m1) ->
    exists p1 p p2 l2, ps = p1 ++ p :: p2 /\ l = l1 ++ l2 /\ ma_multi_push ne hash (p :: p2) true m1 = Ok (true, l2, m2).
  Proof.
    intros E T. destruct (multi_t_split _ _ _ _ _ T) as (p1 & e & n & d & p2 & l0 & m0 & lx & -> & A & B & ->).
    rewrite multi_app, A in E. cbn [bind ma_multi_push] in E.
    destruct (ma_push ne hash e n d true m0) as [[[b la] ma]| |] eqn:P; cbn [bind] in E; try discriminate.
    destruct (ma_multi_push ne hash p2 true ma) as [[[b2 lb] mb]| |] eqn:M; cbn [bind] in E; try discriminate. injection E as -> <- ->.
    destruct (mpush_retry _ _ _ _ _ _ _ _ _ _ P B) as [-> R]. exists p1, (e, (n, d)), p2, lb. split; [reflexivity|]. split; [now rewrite app_assoc|].
    cbn [ma_multi_push]. rewrite R. cbn [bind]. rewrite M. reflexivity.
  Qed.
End Nth.
