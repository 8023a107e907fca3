(** A multi_aggregator when allocations fail. *)
From Coq Require Import ZArith List Bool Permutation Lia Arith Ascii.
From Verif Require Import Base ModelTypes ModelAvg ModelReducer SpecReducer ModelSeparator SpecSeparator SepProofs
  ModelAggregator SpecAggregator AggProofs AggRun AggFinal AggSafe ModelRegistry SpecRegistry RegProofs ModelMulti SpecMulti MultiProofs MultiRun
  ModelAlloc ModelAggAlloc SpecAggAlloc AggAllocProofs ModelThrow SpecThrow ModelMultiThrow MultiThrowProofs MultiThrowRun
  ModelMultiAlloc SpecMultiAlloc.
Import ListNotations.
Local Open Scope Z_scope.

Definition fgiven (t : gend) : list adata := match t with GRet o => reports o | GThrew recs _ => map no_perc recs end.
Definition flost (t : gend) : list adata := match t with GRet _ => [] | GThrew _ w => w end.
Lemma f_reports_eq t : f_reports t = fgiven t ++ flost t.
Proof. destruct t; cbn [f_reports fgiven flost]; [now rewrite app_nil_r|reflexivity]. Qed.

Section Nth.
  Variable ne : nat -> list Z -> list Z.
  Variable hash : name -> Z.

  Lemma push_f_bool d f c1 c2 g x g1 : gf_call ne (GoPush (SmRed d) true c1 c2) f g = Ok (GRet x, g1) -> exists b, x = mk_sout (Some b) (out_handler x) None.
  Proof.
    intros E. apply call_ret in E. cbn [g_call] in E. destruct (g_push_red ne c1 c2 d true g) as [[[b recs] g2]| |]; cbn [bind] in E; try discriminate.
    injection E as <- _. exists b. reflexivity.
  Qed.
  (** A push, taken apart. *)
  Lemma bm_push_apart o e n d f m r l w m1 : bm_push_f ne o e n d f m = Ok (r, l, w, m1) ->
    (r = None /\ l = [] /\ w = [] /\ m1 = m /\ f = Some MfNew /\ bm_find n m = None) \/
    exists g t g1, match bm_find n m with Some g0 => g = g0 | None => agg_new o (pe_clock e) (pe_rnd e) (ri_ts (rd_info d)) = Ok g end /\
      gf_call ne (GoPush (SmRed d) true (pe_c1 e) (pe_c2 e)) (inner f) g = Ok (t, g1) /\ m1 = bm_set n g1 m /\
      l = map (fun a => (n, a)) (fgiven t) /\ w = map (fun a => (n, a)) (flost t) /\
      match t with
      | GRet x => exists b, r = Some b /\ x = mk_sout (Some b) (out_handler x) None
      | GThrew _ _ => r = None
      end.
  Proof.
    unfold bm_push_f. fold (inner f). intros E.
    assert (X : (f = Some MfNew /\ bm_find n m = None /\ Ok (None, [], [], m) = Ok (r, l, w, m1)) \/
      (g <- match bm_find n m with Some g => Ok g | None => agg_new o (pe_clock e) (pe_rnd e) (ri_ts (rd_info d)) end ;;
       '(r, g1) <- gf_call ne (GoPush (SmRed d) true (pe_c1 e) (pe_c2 e)) (inner f) g ;;
       match r with
       | GRet x => Ok (out_bool x, map (fun a => (n, only_reduced a)) (out_handler x), [], bm_set n g1 m)
       | GThrew recs lost => Ok (None, map (fun a => (n, only_reduced a)) recs, map (fun a => (n, a)) lost, bm_set n g1 m)
       end) = Ok (r, l, w, m1)).
    { destruct f as [[| |x]|]; try (right; exact E). destruct (bm_find n m) eqn:F; [right; exact E|left; auto]. }
    clear E. destruct X as [(-> & F & E)|E]; [injection E as <- <- <- <-; left; auto 10|right].
    destruct (match bm_find n m with Some g => Ok g | None => _ end) as [g| |] eqn:G; cbn [bind] in E; try discriminate.
    destruct (gf_call _ _ _ _) as [[t g1]| |] eqn:T; cbn [bind] in E; try discriminate.
    exists g, t, g1. split; [destruct (bm_find n m); congruence|]. split; [exact T|].
    destruct t as [x|recs lost].
    - destruct (push_f_bool _ _ _ _ _ _ _ T) as [b Eb]. injection E as <- <- <- <-. split; [reflexivity|].
      split; [cbn [fgiven]; unfold reports; replace (out_ptr x) with (@None adata) by (rewrite Eb; reflexivity); rewrite app_nil_r, map_map; reflexivity|].
      split; [reflexivity|]. exists b. split; [now rewrite Eb|exact Eb].
    - injection E as <- <- <- <-. split; [reflexivity|]. split; [cbn [fgiven]; rewrite map_map; reflexivity|]. split; reflexivity.
  Qed.

  (** * Without a failure *)
  Lemma bm_push_plain o e n d m : bm_push_f ne o e n d None m = ('(b, l, m1) <- bm_push ne o e n d true m ;; Ok (Some b, l, [], m1)).
  Proof.
    unfold bm_push_f, bm_push. destruct (match bm_find n m with Some g => Ok g | None => _ end) as [g| |]; cbn [bind]; try reflexivity.
    change (g_push_f ne None (pe_c1 e) (pe_c2 e) (sm_ts (SmRed d)) true (sm_op (SmRed d)) g) with (gf_call ne (GoPush (SmRed d) true (pe_c1 e) (pe_c2 e)) None g).
    rewrite call_plain. cbn [g_call]. destruct (g_push_red ne _ _ _ _ _) as [[[b recs] g1]| |]; reflexivity.
  Qed.
  Lemma ma_push_plain e n d m : ma_push_f ne hash e n d None m = ('(b, l, m1) <- ma_push ne hash e n d true m ;; Ok (Some b, l, [], m1)).
  Proof.
    unfold ma_push_f, ma_push. destruct (ma_pos hash n m) as [i| |]; cbn [bind]; try reflexivity. destruct (ma_shard i m) as [b| |]; cbn [bind]; try reflexivity.
    rewrite bm_push_plain. destruct (bm_push ne _ _ _ _ _ _) as [[[? ?] ?]| |]; reflexivity.
  Qed.
  Lemma multi_plain : forall ps m, ma_multi_push_f ne hash ps None m = ('(b, l, m1) <- ma_multi_push ne hash ps true m ;; Ok (false, l, [], m1)).
  Proof.
    induction ps as [|[e [n d]] ps IH]; intros m; cbn [ma_multi_push_f ma_multi_push]; [reflexivity|]. rewrite ma_push_plain.
    destruct (ma_push ne hash e n d true m) as [[[b l] m1]| |]; cbn [bind]; try reflexivity. rewrite IH.
    destruct (ma_multi_push ne hash ps true m1) as [[[b2 l2] m2]| |]; reflexivity.
  Qed.
  Lemma loop_f_plain force : forall ks m, bm_loop_f ne None force ks m = ('(l, m1) <- bm_loop ne force true ks m ;; Ok (false, l, [], m1)).
  Proof.
    induction ks as [|k ks IH]; intros m; cbn [bm_loop_f bm_loop]; [reflexivity|]. destruct (bm_find k m) as [g|]; [|apply IH].
    destruct (if force then _ else _) as [[a g1]| |]; cbn [bind]; try reflexivity.
    rewrite IH. destruct a as [x|]; cbn [bind]; destruct (bm_loop ne force true ks (bm_set k g1 m)) as [[l2 m2]| |]; reflexivity.
  Qed.
  Lemma shards_f_plain force ord : forall bs, ma_shards_f ne None force ord bs = ('(l, t) <- ma_shards ne force true ord bs ;; Ok (false, l, [], t)).
  Proof.
    induction bs as [|b bs IH]; cbn [ma_shards_f ma_shards]; [reflexivity|]. unfold bm_pushout_f, bm_pushout. rewrite loop_f_plain.
    destruct (bm_loop ne force true (ord (map fst b)) b) as [[l b1]| |]; cbn [bind]; try reflexivity. rewrite IH.
    destruct (ma_shards ne force true ord bs) as [[l2 t]| |]; reflexivity.
  Qed.
  Lemma do_plain op m : fm_fault op = false -> fm_do ne hash op m = ('(out, m1) <- ma_do ne hash (fm_plain op) m ;; Ok (fm_ret out, m1)).
  Proof.
    destruct op as [e n d [f|]|ps [f|]|n|force ord [f|]|]; cbn [fm_fault]; try discriminate; intros _; cbn [fm_do fm_plain ma_do].
    - rewrite ma_push_plain. destruct (ma_push ne hash e n d true m) as [[[b l] m1]| |]; reflexivity.
    - rewrite multi_plain. destruct (ma_multi_push ne hash ps true m) as [[[b l] m1]| |] eqn:E; cbn [bind]; try reflexivity.
      apply multi_b in E. subst b. reflexivity.
    - destruct (ma_del hash n m) as [[b m1]| |]; reflexivity.
    - unfold ma_pushout_f, ma_pushout. rewrite shards_f_plain. destruct (ma_shards ne force true ord (mu_list m)) as [[l t]| |]; reflexivity.
    - reflexivity.
  Qed.

  (** * A call that returns *)
  Lemma push_f_back o e n d f m b l w m1 : bm_push_f ne o e n d f m = Ok (Some b, l, w, m1) -> bm_push ne o e n d true m = Ok (b, l, m1) /\ w = [].
  Proof.
    intros E. destruct (bm_push_apart _ _ _ _ _ _ _ _ _ _ E) as [(H & _)|(g & t & g1 & G & T & -> & -> & -> & R)]; [discriminate|].
    destruct t as [x|]; [|discriminate]. destruct R as (b0 & Hb & Ex). injection Hb as <-. split; [|reflexivity]. apply call_ret in T. cbn [g_call] in T.
    destruct (g_push_red ne _ _ d true g) as [[[b2 recs] g2]| |] eqn:P; cbn [bind] in T; try discriminate. injection T as Tx <-.
    assert (b2 = b /\ recs = out_handler x) as [-> ->] by (rewrite Ex in Tx; injection Tx as -> ->; rewrite Ex; auto).
    unfold bm_push. assert (A : match bm_find n m with Some g => Ok g | None => agg_new o (pe_clock e) (pe_rnd e) (ri_ts (rd_info d)) end = Ok g)
      by (destruct (bm_find n m); congruence). rewrite A. cbn [bind]. rewrite P. cbn [bind].
    cbn [fgiven]. unfold reports. replace (out_ptr x) with (@None adata) by (rewrite Ex; reflexivity). rewrite app_nil_r, map_map. reflexivity.
  Qed.
  Lemma ma_push_back e n d f m b l w m1 : ma_push_f ne hash e n d f m = Ok (Some b, l, w, m1) -> ma_push ne hash e n d true m = Ok (b, l, m1) /\ w = [].
  Proof.
    intros E. assert (E' : (i <- ma_pos hash n m ;; s <- ma_shard i m ;; '(r, l, w, b1) <- bm_push_f ne (ma_agg (mu_opt m)) e n d f s ;; Ok (r, l, w, ma_put i b1 m)) = Ok (Some b, l, w, m1))
      by (unfold ma_push_f in E; destruct f as [[| |]|]; try discriminate; exact E). clear E. unfold ma_push.
    destruct (ma_pos hash n m) as [i| |]; cbn [bind] in *; try discriminate. destruct (ma_shard i m) as [s| |]; cbn [bind] in *; try discriminate.
    destruct (bm_push_f _ _ _ _ _ _ _) as [[[[r l1] w1] b1]| |] eqn:P; cbn [bind] in E'; try discriminate. injection E' as -> <- <- <-.
    destruct (push_f_back _ _ _ _ _ _ _ _ _ _ P) as [-> ->]. auto.
  Qed.
  Lemma multi_f_back : forall ps f m l w m1, ma_multi_push_f ne hash ps f m = Ok (false, l, w, m1) -> ma_multi_push ne hash ps true m = Ok (true, l, m1) /\ w = [].
  Proof.
    induction ps as [|[e [n d]] ps IH]; intros f m l w m1 E; cbn [ma_multi_push_f ma_multi_push] in *; [injection E as <- <- <-; auto|].
    destruct (ma_push_f _ _ _ _ _ _ _) as [[[[r l1] w1] m2]| |] eqn:P; cbn [bind] in E; try discriminate. destruct r as [b|]; [|discriminate].
    destruct (ma_multi_push_f _ _ _ _ _) as [[[[b2 l2] w2] m3]| |] eqn:M; cbn [bind] in E; try discriminate. injection E as -> <- <- <-.
    destruct (ma_push_back _ _ _ _ _ _ _ _ _ P) as [-> ->]. cbn [bind]. destruct (IH _ _ _ _ _ M) as [-> ->]. auto.
  Qed.
  Lemma loop_f_back f force : forall ks m l w m1, bm_loop_f ne f force ks m = Ok (false, l, w, m1) -> bm_loop ne force true ks m = Ok (l, m1) /\ w = [].
  Proof.
    induction ks as [|k ks IH]; intros m l w m1 E; cbn [bm_loop_f bm_loop] in *; [injection E as <- <- <-; auto|].
    destruct (bm_find k m) as [g|]; [|eauto]. cbv zeta in E. set (here := match f with Some (k0, x) => if name_eqb k k0 then Some x else None | None => None end) in E.
    assert (E' : ('(a, g1) <- (if force then g_force_pop ne g else Ok (g_pop g)) ;;
                  '(b, l0, w0, m2) <- bm_loop_f ne f force ks (bm_set k g1 m) ;; Ok (b, match a with Some x => (k, x) :: l0 | None => l0 end, w0, m2)) = Ok (false, l, w, m1)).
    { destruct here as [[]|].
      - destruct (force && _ && _); [discriminate|]. destruct (if force then _ else _) as [[a g1]| |]; cbn [bind] in *; try discriminate. destruct a; exact E.
      - destruct (if force then _ else _) as [[a g1]| |]; cbn [bind] in *; try discriminate. destruct a; [discriminate|exact E].
      - destruct (if force then _ else _) as [[a g1]| |]; cbn [bind] in *; try discriminate. destruct a; exact E. }
    clear E. destruct (if force then _ else _) as [[a g1]| |]; cbn [bind] in *; try discriminate.
    destruct (bm_loop_f _ _ _ _ _) as [[[[b2 l2] w2] m3]| |] eqn:M; cbn [bind] in E'; try discriminate. injection E' as -> <- <- <-.
    destruct (IH _ _ _ _ M) as [R ->]. rewrite R. destruct a; auto.
  Qed.
  Lemma shards_f_back f force ord : forall bs l w t, ma_shards_f ne f force ord bs = Ok (false, l, w, t) -> ma_shards ne force true ord bs = Ok (l, t) /\ w = [].
  Proof.
    induction bs as [|b bs IH]; intros l w t E; cbn [ma_shards_f ma_shards] in *; [injection E as <- <- <-; auto|]. unfold bm_pushout, bm_pushout_f in *.
    destruct (bm_loop_f _ _ _ _ _) as [[[[r l1] w1] b1]| |] eqn:L; cbn [bind] in E; try discriminate. destruct r; [discriminate|].
    destruct (ma_shards_f _ _ _ _ _) as [[[[r2 l2] w2] t2]| |] eqn:M; cbn [bind] in E; try discriminate. injection E as -> <- <- <-.
    destruct (loop_f_back _ _ _ _ _ _ _ L) as [-> ->]. cbn [bind]. destruct (IH _ _ _ eq_refl) as [-> ->]. auto.
  Qed.
  Lemma do_back op m out m1 : fm_do ne hash op m = Ok (out, m1) -> fm_threw out = false -> exists o, ma_do ne hash (fm_plain op) m = Ok (o, m1) /\ out = fm_ret o.
  Proof.
    intros E T. destruct op as [e n d f|ps f|n|force ord f|]; cbn [fm_do fm_plain ma_do] in *.
    - destruct (ma_push_f _ _ _ _ _ _ _) as [[[[r l] w] m2]| |] eqn:P; cbn [bind] in E; try discriminate. injection E as <- <-. destruct r as [b|]; [|discriminate].
      destruct (ma_push_back _ _ _ _ _ _ _ _ _ P) as [-> _]. cbn [bind]. eexists. split; reflexivity.
    - destruct (ma_multi_push_f _ _ _ _ _) as [[[[r l] w] m2]| |] eqn:P; cbn [bind] in E; try discriminate. injection E as <- <-. destruct r; [discriminate|].
      destruct (multi_f_back _ _ _ _ _ _ P) as [-> _]. cbn [bind]. eexists. split; reflexivity.
    - destruct (ma_del hash n m) as [[b m2]| |]; cbn [bind] in *; try discriminate. injection E as <- <-. eexists. split; reflexivity.
    - unfold ma_pushout_f, ma_pushout in *. destruct (ma_shards_f _ _ _ _ _) as [[[[r l] w] t]| |] eqn:P; cbn [bind] in E; try discriminate. injection E as <- <-.
      destruct r; [discriminate|]. destruct (shards_f_back _ _ _ _ _ _ _ P) as [-> _]. cbn [bind]. eexists. split; reflexivity.
    - injection E as <- <-. eexists. split; reflexivity.
  Qed.

  (** * A batch that fails *)
  Lemma multi_f_split : forall ps f m l w m1, ma_multi_push_f ne hash ps f m = Ok (true, l, w, m1) ->
    exists p1 e n d p2 x l0 m0 lx, ps = p1 ++ (e, (n, d)) :: p2 /\ f = Some (length p1, x) /\ ma_multi_push ne hash p1 true m = Ok (true, l0, m0) /\
      ma_push_f ne hash e n d (Some x) m0 = Ok (None, lx, w, m1) /\ l = l0 ++ lx.
  Proof.
    induction ps as [|[e [n d]] ps IH]; intros f m l w m1 E; cbn [ma_multi_push_f] in E; [discriminate|].
    destruct (ma_push_f _ _ _ _ _ _ _) as [[[[r l1] w1] m2]| |] eqn:P; cbn [bind] in E; try discriminate. destruct r as [b|].
    - destruct (ma_multi_push_f _ _ _ _ _) as [[[[b2 l2] w2] m3]| |] eqn:M; cbn [bind] in E; try discriminate. injection E as -> <- <- <-.
      destruct (IH _ _ _ _ _ M) as (p1 & e' & n' & d' & p2 & x & l0 & m0 & lx & -> & Ef & A & B & ->).
      destruct (ma_push_back _ _ _ _ _ _ _ _ _ P) as [Q _].
      exists ((e, (n, d)) :: p1), e', n', d', p2, x, (l1 ++ l0), m0, lx. split; [reflexivity|]. split.
      + destruct f as [[[|i] y]|]; try discriminate. injection Ef as -> ->. reflexivity.
      + split; [cbn [ma_multi_push]; rewrite Q; cbn [bind]; rewrite A; reflexivity|]. split; [exact B|now rewrite app_assoc].
    - injection E as <- <- <-. destruct f as [[[|i] x]|].
      + exists [], e, n, d, ps, x, [], m, l1. auto.
      + rewrite ma_push_plain in P. destruct (ma_push ne hash e n d true m) as [[[? ?] ?]| |]; discriminate.
      + rewrite ma_push_plain in P. destruct (ma_push ne hash e n d true m) as [[[? ?] ?]| |]; discriminate.
  Qed.

  (** * force_pushout repeated *)
  Lemma loop_f_frame f force : forall ks b r l w b1, bm_loop_f ne f force ks b = Ok (r, l, w, b1) -> keys b1 = keys b /\ forall n, ~ In n ks -> bm_find n b1 = bm_find n b.
  Proof.
    induction ks as [|k ks IH]; intros b r l w b1 E; cbn [bm_loop_f] in E; [injection E as _ _ _ <-; auto|].
    destruct (bm_find k b) as [g|] eqn:F; [|destruct (IH _ _ _ _ _ E); split; auto; intros n I; apply H0; intros J; apply I; right; auto].
    cbv zeta in E. set (here := match f with Some (k0, x) => if name_eqb k k0 then Some x else None | None => None end) in E.
    assert (O : forall g1 n, ~ In n (k :: ks) -> bm_find n (bm_set k g1 b) = bm_find n b).
    { intros g1 n Hn. rewrite bm_set_find. destruct (name_eqb_spec k n) as [->|]; [exfalso; apply Hn; left; auto|reflexivity]. }
    assert (K1 : forall g1, keys (bm_set k g1 b) = keys b) by (intros g1; rewrite bm_set_keys, F; auto).
    assert (X : forall g1 r l2 w, bm_loop_f ne f force ks (bm_set k g1 b) = Ok (r, l2, w, b1) -> keys b1 = keys b /\ forall n, ~ In n (k :: ks) -> bm_find n b1 = bm_find n b).
    { intros g1 r0 l2 w2 E2. destruct (IH _ _ _ _ _ E2) as [A1 A2]. split; [rewrite A1; apply K1|]. intros n I. rewrite A2; [apply O; exact I|]. intros J; apply I; right; auto. }
    assert (Y : forall g1 (c : outcome (bool * list (name * adata) * list (name * adata) * bmulti)) (F : list (name * adata) -> list (name * adata)),
      c = bm_loop_f ne f force ks (bm_set k g1 b) -> ('(b, l, w, m2) <- c ;; Ok (b, F l, w, m2)) = Ok (r, l, w, b1) ->
      keys b1 = keys b /\ forall n, ~ In n (k :: ks) -> bm_find n b1 = bm_find n b).
    { intros g1 c Fn -> E2. destruct (bm_loop_f _ _ _ _ _) as [[[[r2 l2] w2] b2]| |] eqn:L; cbn [bind] in E2; try discriminate. injection E2 as _ _ _ <-. eauto. }
    destruct here as [[]|].
    - destruct (force && _ && _); [injection E as _ _ _ <-; auto|]. destruct (if force then _ else _) as [[a g1]| |]; cbn [bind] in E; try discriminate.
      destruct a as [x|]; [exact (Y g1 _ (fun l => (k, x) :: l) eq_refl E)|exact (Y g1 _ (fun l => l) eq_refl E)].
    - destruct (if force then _ else _) as [[a g1]| |]; cbn [bind] in E; try discriminate. destruct a as [x|]; [injection E as _ _ _ <-; auto|exact (Y g1 _ (fun l => l) eq_refl E)].
    - destruct (if force then _ else _) as [[a g1]| |]; cbn [bind] in E; try discriminate.
      destruct a as [x|]; [exact (Y g1 _ (fun l => (k, x) :: l) eq_refl E)|exact (Y g1 _ (fun l => l) eq_refl E)].
  Qed.
  Lemma loop_f_retry f : forall ks b l b2 l1 w b1, NoDup ks -> NoDup (keys b) -> no_list b ->
    bm_loop ne true true ks b = Ok (l, b2) -> bm_loop_f ne f true ks b = Ok (true, l1, w, b1) ->
    exists l2, bm_loop ne true true ks b1 = Ok (l2, b2) /\ l = l1 ++ w ++ l2.
  Proof.
    induction ks as [|k ks IH]; intros b l b2 l1 w b1 NK NB Q E T; [discriminate|]. inversion NK; subst.
    destruct (bm_find k b) as [g|] eqn:F.
    - cbn [bm_loop_f] in T. rewrite F in T. cbv zeta in T. set (here := match f with Some (k0, x) => if name_eqb k k0 then Some x else None | None => None end) in T.
      pose proof E as E0. cbn [bm_loop] in E |- *. rewrite F in E.
      destruct (g_force_pop ne g) as [[a g1]| |] eqn:P; cbn [bind] in E; try discriminate.
      pose proof (force_twice ne _ _ _ (proj2 (Q _ _ F)) P) as W. pose proof (force_quiet ne _ _ _ (Q _ _ F) P) as Q1.
      assert (K1 : NoDup (keys (bm_set k g1 b))) by (rewrite bm_set_keys, F; auto).
      assert (L : exists l0, bm_loop ne true true ks (bm_set k g1 b) = Ok (l0, b2) /\ l = match a with Some x => (k, x) :: l0 | None => l0 end).
      { destruct a as [x|]; cbn [bind] in E; destruct (bm_loop ne true true ks _) as [[l0 b0]| |]; cbn [bind] in E; try discriminate; injection E as <- <-; eauto. }
      destruct L as (l0 & L & ->).
      assert (X : ('(b, l, w, m2) <- bm_loop_f ne f true ks (bm_set k g1 b) ;; Ok (b, match a with Some x => (k, x) :: l | None => l end, w, m2)) = Ok (true, l1, w, b1) ->
        exists l2, match bm_find k b1 with
                   | Some g => '(a, g1) <- g_force_pop ne g;; l <- match a with Some x => Ok [(k, x)] | None => Ok [] end;; '(l2, m2) <- bm_loop ne true true ks (bm_set k g1 b1);; Ok (l ++ l2, m2)
                   | None => bm_loop ne true true ks b1 end = Ok (l2, b2) /\ match a with Some x => (k, x) :: l0 | None => l0 end = l1 ++ w ++ l2).
      { intros X. destruct (bm_loop_f _ _ _ _ _) as [[[[r lt] wt] bt]| |] eqn:LT; cbn [bind] in X; try discriminate. injection X as -> <- -> ->.
        destruct (IH _ _ _ _ _ _ H2 K1 (set_quiet _ _ _ Q Q1) L LT) as (l2 & R & ->). destruct (loop_f_frame _ _ _ _ _ _ _ _ LT) as [A1 A2].
        assert (Fk : bm_find k b1 = Some g1) by (rewrite A2, bm_set_find, name_eqb_refl; auto). rewrite Fk, W. cbn [bind].
        rewrite bm_set_id by (rewrite ?A1; auto). rewrite R. cbn [bind app]. exists l2. split; [reflexivity|]. destruct a; reflexivity. }
      destruct here as [[]|].
      + destruct (true && _ && _).
        * injection T as <- <- <-. rewrite F, P. cbn [bind]. destruct a as [x|]; cbn [bind]; rewrite L; cbn [bind]; eexists; split; reflexivity.
        * rewrite ?P in T. cbn [bind] in T. destruct a; exact (X T).
      + rewrite ?P in T. cbn [bind] in T. destruct a as [x|]; [|exact (X T)]. injection T as <- <- <-.
        rewrite bm_set_find, name_eqb_refl, W. cbn [bind]. rewrite bm_set_id by (auto; rewrite bm_set_find, name_eqb_refl; auto). rewrite L. cbn [bind app]. eauto.
      + rewrite ?P in T. cbn [bind] in T. destruct a; exact (X T).
    - cbn [bm_loop_f bm_loop] in *. rewrite F in *. destruct (IH _ _ _ _ _ _ H2 NB Q E T) as (l2 & R & ->). destruct (loop_f_frame _ _ _ _ _ _ _ _ T) as [A1 A2]. rewrite A2, F by auto. eauto.
  Qed.
  Lemma shards_f_retry f ord : (forall l, Permutation (ord l) l) -> forall bs l bs2 l1 w bs1, (forall b, In b bs -> NoDup (keys b) /\ no_list b) ->
    ma_shards ne true true ord bs = Ok (l, bs2) -> ma_shards_f ne f true ord bs = Ok (true, l1, w, bs1) ->
    exists l2, ma_shards ne true true ord bs1 = Ok (l2, bs2) /\ l = l1 ++ w ++ l2.
  Proof.
    intros O. induction bs as [|b bs IH]; intros l bs2 l1 w bs1 H E T; cbn [ma_shards ma_shards_f] in *; [discriminate|].
    destruct (H b (or_introl eq_refl)) as [NB QB]. assert (NO : NoDup (ord (keys b))) by (exact (Permutation_NoDup (Permutation_sym (O _)) NB)).
    unfold bm_pushout, bm_pushout_f in *. destruct (bm_loop ne true true _ b) as [[la ba]| |] eqn:L; cbn [bind] in E; try discriminate.
    destruct (ma_shards ne true true ord bs) as [[lb tb]| |] eqn:S; cbn [bind] in E; try discriminate. injection E as <- <-.
    destruct (bm_loop_f ne f true _ b) as [[[[r lt] wt] bt]| |] eqn:LT; cbn [bind] in T; try discriminate. destruct r.
    - injection T as <- <- <-. destruct (loop_f_retry f _ _ _ _ _ _ _ NO NB QB L LT) as (l2 & R & ->). destruct (loop_f_frame _ _ _ _ _ _ _ _ LT) as [K _].
      cbn [ma_shards]. unfold bm_pushout. replace (map fst bt) with (map fst b) by (symmetry; exact K). change (keys b) with (map fst b) in R. rewrite R. cbn [bind]. rewrite S. cbn [bind].
      exists (l2 ++ lb). split; [reflexivity|now rewrite !app_assoc].
    - destruct (ma_shards_f ne f true ord bs) as [[[[r2 l2] w2] t2]| |] eqn:ST; cbn [bind] in T; try discriminate. injection T as -> <- <- <-.
      destruct (loop_f_back _ _ _ _ _ _ _ LT) as [LT' _]. assert (la = lt /\ ba = bt) as [-> ->] by (change (map fst b) with (keys b) in *; split; congruence).
      destruct (IH _ _ _ _ _ (fun x Hx => H x (or_intror Hx)) eq_refl eq_refl) as (l3 & R & ->).
      destruct (loop_again ne _ _ _ _ NO NB QB LT') as [R2 K]. cbn [ma_shards]. unfold bm_pushout. replace (map fst bt) with (map fst b) by (symmetry; exact K). change (keys b) with (map fst b) in R2. rewrite R2. cbn [bind].
      rewrite R. cbn [bind app]. exists l3. split; [reflexivity|now rewrite app_assoc].
  Qed.
End Nth.
