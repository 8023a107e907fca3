(** C104: running out of memory makes no call of a multi_aggregator undefined. *)
From Coq Require Import ZArith List Bool Ascii Permutation Lia Arith.
From Verif Require Import Base SortFacts ModelTypes ModelReducer SpecReducer ModelSeparator SpecSeparator ModelAggregator SpecAggregator
  ModelRegistry SpecRegistry ModelMulti SpecMulti ModelAlloc SpecAlloc ModelAggAlloc SpecAggAlloc AggAllocProofs PropsAggAllocDef
  MultiProofs MultiRun ModelMultiAlloc SpecMultiAlloc MultiThrowHist MultiAllocProofs MultiAllocHist PropsRegistry PropsMulti PropsMultiAlloc.
Import ListNotations.
Local Open Scope Z_scope.

Section T.
  Variable ne : nat -> list Z -> list Z.
  Variable hash : name -> Z.
  Lemma bm_push_def o e n d f m q : bm_push ne o e n d true m = Ok q -> exists r l w m1, bm_push_f ne o e n d f m = Ok (r, l, w, m1).
  Proof.
    unfold bm_push, bm_push_f. intros E.
    assert (P : exists r l w m1, (g <- match bm_find n m with Some g => Ok g | None => agg_new o (pe_clock e) (pe_rnd e) (ri_ts (rd_info d)) end ;;
        '(r, g1) <- g_push_f ne (match f with Some (MfAgg x) => Some x | _ => None end) (pe_c1 e) (pe_c2 e) (sm_ts (SmRed d)) true (sm_op (SmRed d)) g ;;
        match r with
        | GRet x => Ok (out_bool x, map (fun a => (n, only_reduced a)) (out_handler x), [], bm_set n g1 m)
        | GThrew recs lost => Ok (None, map (fun a => (n, only_reduced a)) recs, map (fun a => (n, a)) lost, bm_set n g1 m)
        end) = Ok (r, l, w, m1)).
    { destruct (match bm_find n m with Some g => Ok g | None => _ end) as [g| |]; cbn [bind] in *; try discriminate.
      destruct (g_push_red ne (pe_c1 e) (pe_c2 e) d true g) as [[[b recs] g1]| |] eqn:Eg; cbn [bind] in E; try discriminate.
      assert (G : g_call ne (GoPush (SmRed d) true (pe_c1 e) (pe_c2 e)) g = Ok (mk_sout (Some b) recs None, g1)) by (cbn [g_call]; rewrite Eg; reflexivity).
      destruct (C94_defined ne (GoPush (SmRed d) true (pe_c1 e) (pe_c2 e)) (match f with Some (MfAgg x) => Some x | _ => None end) _ _ _ I G) as (t & g2 & H). cbn [gf_call] in H.
      rewrite H. cbn [bind]. destruct t; eauto 6. }
    destruct f as [[| |x]|]; try exact P. destruct (bm_find n m); [exact P|]. eauto 6.
  Qed.
  Lemma ma_push_def e n d f m q : ma_push ne hash e n d true m = Ok q -> exists r l w m1, ma_push_f ne hash e n d f m = Ok (r, l, w, m1).
  Proof.
    unfold ma_push, ma_push_f. intros E.
    assert (P : exists r l w m1, (i <- ma_pos hash n m ;; b <- ma_shard i m ;; '(r, l, w, b1) <- bm_push_f ne (ma_agg (mu_opt m)) e n d f b ;;
                                  Ok (r, l, w, ma_put i b1 m)) = Ok (r, l, w, m1)).
    { destruct (ma_pos hash n m) as [i| |]; cbn [bind] in *; try discriminate. destruct (ma_shard i m) as [b| |]; cbn [bind] in *; try discriminate.
      destruct (bm_push ne _ e n d true b) as [q1| |] eqn:Eb; cbn [bind] in E; try discriminate.
      destruct (bm_push_def _ _ _ _ f _ _ Eb) as (r & l & w & m1 & ->). cbn [bind]. eauto 6. }
    destruct f as [[| |x]|]; try exact P. eauto 6.
  Qed.
  Lemma multi_def : forall ps f m q, ma_multi_push ne hash ps true m = Ok q -> exists r l w m1, ma_multi_push_f ne hash ps f m = Ok (r, l, w, m1).
  Proof.
    induction ps as [|[e [n d]] ps IH]; intros f m q E; cbn [ma_multi_push ma_multi_push_f] in *; [eauto 6|].
    destruct (ma_push ne hash e n d true m) as [[[b l0] m0]| |] eqn:Ep; cbn [bind] in E; try discriminate.
    destruct (ma_push_def _ _ _ (match f with Some (O, x) => Some x | _ => None end) _ _ Ep) as (r & l & w & m1 & H). rewrite H. cbn [bind].
    destruct r as [r|]; [|eauto 6]. destruct (ma_push_back ne hash _ _ _ _ _ _ _ _ _ H) as [H1 _]. rewrite Ep in H1. injection H1 as -> -> ->.
    destruct (ma_multi_push ne hash ps true m1) as [q1| |] eqn:Em; cbn [bind] in E; try discriminate.
    destruct (IH (match f with Some (S i, x) => Some (i, x) | _ => None end) _ _ Em) as (r2 & l2 & w2 & m2 & ->). cbn [bind]. eauto 6.
  Qed.
  Lemma loop_f_def f force : forall ks m q, bm_loop ne force true ks m = Ok q -> exists r l w m1, bm_loop_f ne f force ks m = Ok (r, l, w, m1).
  Proof.
    induction ks as [|n ks IH]; intros m q E; cbn [bm_loop bm_loop_f] in *; [eauto 6|]. destruct (bm_find n m) as [g|]; [|eauto].
    destruct (if force then g_force_pop ne g else Ok (g_pop g)) as [[a g1]| |]; cbn [bind] in *; try discriminate. cbv zeta.
    assert (Q : exists r l w m1, bm_loop_f ne f force ks (bm_set n g1 m) = Ok (r, l, w, m1)).
    { destruct a as [a|]; cbn [bind] in E; destruct (bm_loop ne force true ks (bm_set n g1 m)) as [q1| |] eqn:El; cbn [bind] in E; try discriminate; eauto. }
    destruct Q as (r & l & w & m1 & Q).
    assert (P : exists r' l' w' m', ('(b, l, w, m2) <- bm_loop_f ne f force ks (bm_set n g1 m) ;; Ok (b, match a with Some x => (n, x) :: l | None => l end, w, m2)) = Ok (r', l', w', m'))
      by (rewrite Q; cbn [bind]; eauto 6).
    destruct (match f with Some (k, x) => if name_eqb n k then Some x else None | None => None end) as [[|]|].
    - destruct (force && _ && _); [eauto 6|]. destruct a; exact P.
    - destruct a; [eauto 6|exact P].
    - destruct a; exact P.
  Qed.
  Lemma shards_f_def f force ord : forall bs q, ma_shards ne force true ord bs = Ok q -> exists r l w t, ma_shards_f ne f force ord bs = Ok (r, l, w, t).
  Proof.
    induction bs as [|b bs IH]; intros q E; cbn [ma_shards ma_shards_f] in *; [eauto 6|]. unfold bm_pushout in E. unfold bm_pushout_f.
    destruct (bm_loop ne force true (ord (map fst b)) b) as [[l0 b0]| |] eqn:El; cbn [bind] in E; try discriminate.
    destruct (loop_f_def f force _ _ _ El) as (r & l & w & b1 & ->). cbn [bind]. destruct r; [eauto 6|].
    destruct (ma_shards ne force true ord bs) as [q1| |] eqn:Es; cbn [bind] in E; try discriminate.
    destruct (IH _ eq_refl) as (r2 & l2 & w2 & t & ->). cbn [bind]. eauto 6.
  Qed.
End T.

(** Whatever allocation fails in a call: if the call is well defined when memory suffices, it is well defined now - it returns or throws bad_alloc. *)
Theorem C104_defined : forall ne hash op m out m1, ma_do ne hash (fm_plain op) m = Ok (out, m1) -> exists out' m2, fm_do ne hash op m = Ok (out', m2).
Proof.
  intros ne hash op m out m1 E. destruct op as [e n d f|ps f|n|force ord f|]; cbn [fm_plain ma_do fm_do] in *.
  - destruct (ma_push ne hash e n d true m) as [q| |] eqn:Ep; cbn [bind] in E; try discriminate.
    destruct (ma_push_def ne hash _ _ _ f _ _ Ep) as (r & l & w & m2 & ->). cbn [bind]. eauto.
  - destruct (ma_multi_push ne hash ps true m) as [q| |] eqn:Ep; cbn [bind] in E; try discriminate.
    destruct (multi_def ne hash _ f _ _ Ep) as (r & l & w & m2 & ->). cbn [bind]. eauto.
  - destruct (ma_del hash n m) as [[b m2]| |]; cbn [bind] in *; try discriminate. eauto.
  - unfold ma_pushout in E. unfold ma_pushout_f. destruct (ma_shards ne force true ord (mu_list m)) as [q| |] eqn:Ep; cbn [bind] in E; try discriminate.
    destruct (shards_f_def ne f _ _ _ _ Ep) as (r & l & w & m2 & ->). cbn [bind]. eauto.
  - eauto.
Qed.
Print Assumptions C104_defined.
(** The hypothesis is met where calls fail: see also C104_retry_witness. *)
Example C104_defined_witness : exists outs m o m1 l w m2, fm_run ne_rev mx_hash (ma_new mx_o) (firstn 5 ma_ops) = Ok (outs, m) /\
  ma_do ne_rev mx_hash (MMulti ma_b true) m = Ok (o, m1) /\
  fm_do ne_rev mx_hash (FmMulti ma_b (Some (1%nat, MfAgg GfQueue))) m = Ok (FmThrew l w, m2) /\ length l = 1%nat /\ length w = 1%nat.
Proof. eexists _, _, _, _, _, _, _. split; [vm_compute; reflexivity|]. split; [vm_compute; reflexivity|]. split; [vm_compute; reflexivity|]. split; reflexivity. Qed.

(** After any history: a push() for which the copy of the handler, or the aggregator of a name not there yet, cannot be made throws, and nothing at all
    has changed. *)
Theorem C104_throws : forall ne hash o, (0 < ma_hash o)%nat -> forall ops outs m e n d f, Forall fm_order_ok ops ->
  fm_run ne hash (ma_new o) ops = Ok (outs, m) -> f = MfStart \/ f = MfNew /\ ma_get hash o m n = None ->
  fm_do ne hash (FmPush e n d (Some f)) m = Ok (FmThrew [] [], m).
Proof.
  intros ne hash o H ops outs m e n d f O E [->|[-> G]]; [reflexivity|].
  destruct (frun_TQ ne hash o _ _ _ _ (TQ_new hash o H) O E) as [I _]. cbn [fm_do]. unfold ma_push_f.
  rewrite (pos_ok _ _ _ _ I). destruct (shard_ok hash o m n I) as (b & B & S & F). cbn [bind]. rewrite S. cbn [bind]. unfold bm_push_f.
  rewrite F in G. rewrite G. cbn [bind]. replace (ma_put (shard_of hash o n) b m) with m; [reflexivity|].
  unfold ma_put. destruct m as [mo l]. cbn [mu_list mu_opt] in *. f_equal. clear -B. revert B. generalize (shard_of hash o n). induction l as [|x l IH]; intros [|i] B; cbn in *; try discriminate.
  - congruence.
  - f_equal. auto.
Qed.
Print Assumptions C104_throws.
Example C104_throws_witness : exists outs m, fm_run ne_rev mx_hash (ma_new mx_o) (firstn 5 ma_ops) = Ok (outs, m) /\ ma_get mx_hash mx_o m nb = None /\
  ma_get mx_hash mx_o m na <> None.
Proof. eexists _, _. split; [vm_compute; reflexivity|]. split; [reflexivity|discriminate]. Qed.

Section Failing.
  Variable ne : nat -> list Z -> list Z.
  Lemma loop_f_names f force : forall ks b r l w b1, bm_loop_f ne f force ks b = Ok (r, l, w, b1) -> incl (map fst l) ks.
  Proof.
    induction ks as [|k ks IH]; intros b r l w b1 E; cbn [bm_loop_f] in E; [injection E as _ <- _ _; intros x []|].
    destruct (bm_find k b) as [g|]; [|apply incl_tl; eauto]. cbv zeta in E.
    assert (Y : forall a g1, ('(b, l, w, m2) <- bm_loop_f ne f force ks (bm_set k g1 b) ;; Ok (b, match a with Some x => (k, x) :: l | None => l end, w, m2)) = Ok (r, l, w, b1) ->
      incl (map fst l) (k :: ks)).
    { intros a g1 E2. destruct (bm_loop_f _ _ _ _ _) as [[[[r2 l2] w2] b2]| |] eqn:L; cbn [bind] in E2; try discriminate. injection E2 as _ <- _ _.
      pose proof (IH _ _ _ _ _ L) as I. destruct a; cbn [map fst]; [|now apply incl_tl]. intros x [<-|J]; [now left|right; auto]. }
    destruct (match f with Some (k0, x) => if name_eqb k k0 then Some x else None | None => None end) as [[]|].
    - destruct (force && _ && _); [injection E as _ <- _ _; intros x []|]. destruct (if force then _ else _) as [[a g1]| |]; cbn [bind] in E; try discriminate. destruct a as [y|]; [exact (Y (Some y) g1 E)|exact (Y None g1 E)].
    - destruct (if force then _ else _) as [[a g1]| |]; cbn [bind] in E; try discriminate. destruct a; [injection E as _ <- _ _; intros x []|]. exact (Y None g1 E).
    - destruct (if force then _ else _) as [[a g1]| |]; cbn [bind] in E; try discriminate. destruct a as [y|]; [exact (Y (Some y) g1 E)|exact (Y None g1 E)].
  Qed.
  Lemma loop_f_threw f force : forall ks b l w b1, NoDup ks -> bm_loop_f ne f force ks b = Ok (true, l, w, b1) ->
    exists n x, f = Some (n, x) /\ In n ks /\ ~ In n (map fst l) /\ match x with PfDetach => w = [] | PfRequest => exists a, w = [(n, a)] end.
  Proof.
    induction ks as [|k ks IH]; intros b l w b1 ND E; cbn [bm_loop_f] in E; [discriminate|]. inversion ND as [|? ? NI ND']; subst.
    assert (UP : forall b2 l2, bm_loop_f ne f force ks b2 = Ok (true, l2, w, b1) -> forall l, (l = l2 \/ exists x, l = (k, x) :: l2) ->
      exists n x, f = Some (n, x) /\ In n (k :: ks) /\ ~ In n (map fst l) /\ match x with PfDetach => w = [] | PfRequest => exists a, w = [(n, a)] end).
    { intros b2 l2 E2 l0 L0. destruct (IH _ _ _ _ ND' E2) as (n & x & A & B & C & D). exists n, x. split; [exact A|]. split; [now right|]. split; [|exact D].
      destruct L0 as [->|[y ->]]; [exact C|]. cbn [map fst]. intros [<-|J]; auto. }
    destruct (bm_find k b) as [g|]; [|eapply UP; [exact E|auto]]. cbv zeta in E.
    assert (Y : forall a g1, ('(b, l, w, m2) <- bm_loop_f ne f force ks (bm_set k g1 b) ;; Ok (b, match a with Some x => (k, x) :: l | None => l end, w, m2)) = Ok (true, l, w, b1) ->
      exists n x, f = Some (n, x) /\ In n (k :: ks) /\ ~ In n (map fst l) /\ match x with PfDetach => w = [] | PfRequest => exists a, w = [(n, a)] end).
    { intros a g1 E2. destruct (bm_loop_f _ _ _ _ _) as [[[[r2 l2] w2] b2]| |] eqn:L; cbn [bind] in E2; try discriminate. injection E2 as -> El -> ->.
      eapply UP; [exact L|]. destruct a; eauto. }
    destruct f as [[n x]|]; [unfold name_eqb in E; destruct (list_eq_dec ascii_dec k n) as [<-|N]; [destruct x|]|].
    - destruct (force && _ && _).
      + injection E as <- <- _. exists k, PfDetach. split; [reflexivity|]. split; [now left|]. split; [intros []|reflexivity].
      + destruct (if force then _ else _) as [[a g1]| |]; cbn [bind] in E; try discriminate. destruct a as [y|]; [exact (Y (Some y) g1 E)|exact (Y None g1 E)].
    - destruct (if force then _ else _) as [[a g1]| |]; cbn [bind] in E; try discriminate. destruct a as [y|]; [|exact (Y None g1 E)].
      injection E as <- <- _. exists k, PfRequest. split; [reflexivity|]. split; [now left|]. split; [intros []|eauto].
    - destruct (if force then _ else _) as [[a g1]| |]; cbn [bind] in E; try discriminate. destruct a as [y|]; [exact (Y (Some y) g1 E)|exact (Y None g1 E)].
    - destruct (if force then _ else _) as [[a g1]| |]; cbn [bind] in E; try discriminate. destruct a as [y|]; [exact (Y (Some y) g1 E)|exact (Y None g1 E)].
  Qed.
  Lemma shards_f_threw f force ord (Ho : forall l, Permutation (ord l) l) : forall bs l w bs1, Forall (fun b => NoDup (keys b)) bs ->
    (forall i j a b k, nth_error bs i = Some a -> nth_error bs j = Some b -> In k (keys a) -> In k (keys b) -> i = j) ->
    ma_shards_f ne f force ord bs = Ok (true, l, w, bs1) ->
    exists n x, f = Some (n, x) /\ (exists b, In b bs /\ In n (keys b)) /\ ~ In n (map fst l) /\ match x with PfDetach => w = [] | PfRequest => exists a, w = [(n, a)] end.
  Proof.
    induction bs as [|b bs IH]; intros l w bs1 ND DJ E; cbn [ma_shards_f] in E; [discriminate|]. unfold bm_pushout_f in E.
    destruct (bm_loop_f ne f force (ord (map fst b)) b) as [[[[r l1] w1] b1]| |] eqn:L; cbn [bind] in E; try discriminate.
    change (map fst b) with (keys b) in L. destruct r.
    - injection E as <- <- _. assert (N1 : NoDup (ord (keys b))) by (eapply Permutation_NoDup; [apply Permutation_sym, Ho|exact (Forall_inv ND)]).
      destruct (loop_f_threw _ _ _ _ _ _ _ N1 L) as (n & x & A & B & C & D). exists n, x. split; [exact A|]. split; [exists b; split; [now left|]|auto].
      eapply Permutation_in; [apply Ho|exact B].
    - destruct (ma_shards_f ne f force ord bs) as [[[[r2 l2] w2] t2]| |] eqn:Sh; cbn [bind] in E; try discriminate. injection E as -> <- -> _.
      destruct (IH _ _ _ (Forall_inv_tail ND) (fun i j a c k Ha Hc Ka Kc => f_equal pred (DJ (S i) (S j) a c k Ha Hc Ka Kc)) eq_refl) as (n & x & A & (b0 & B1 & B2) & C & D).
      exists n, x. split; [exact A|]. split; [exists b0; split; [now right|exact B2]|]. split; [|exact D].
      rewrite map_app. intros J. apply in_app_or in J as [J|J]; [|auto]. apply (loop_f_names _ _ _ _ _ _ _ _ L) in J.
      apply (Permutation_in n (Ho (keys b))) in J. destruct (In_nth_error _ _ B1) as [i Hi]. discriminate (DJ O (S i) b b0 n eq_refl Hi J B2).
  Qed.
End Failing.
(** After any history: a pushout that throws does so at one name; the handler has not been given a record of that name; if the new record could not be
    made nothing is destroyed, if the request could not be made its record is. *)
Theorem C104_pushout_at : forall ne hash o, (0 < ma_hash o)%nat -> forall ops outs m force ord f l w m1, Forall fm_order_ok ops ->
  fm_run ne hash (ma_new o) ops = Ok (outs, m) -> (forall l, Permutation (ord l) l) ->
  fm_do ne hash (FmPushout force ord f) m = Ok (FmThrew l w, m1) ->
  exists n x, f = Some (n, x) /\ ma_get hash o m n <> None /\ ~ In n (map fst l) /\
    match x with PfDetach => w = [] | PfRequest => exists a, w = [(n, a)] end.
Proof.
  intros ne hash o H ops outs m force ord f l w m1 O E Ho D.
  destruct (frun_TQ ne hash o _ _ _ _ (TQ_new hash o H) O E) as [I _]. cbn [fm_do] in D. unfold ma_pushout_f in D.
  destruct (ma_shards_f ne f force ord (mu_list m)) as [[[[r l0] w0] bs]| |] eqn:Sh; cbn [bind] in D; try discriminate. destruct r; [|discriminate]. injection D as -> -> _.
  destruct (shards_f_threw ne f force ord Ho (mu_list m) l w bs) as (n & x & A & (b & B1 & B2) & C & X); auto.
  - apply Forall_forall. intros b B. destruct (In_nth_error _ _ B) as [i Hi]. exact (mi_nd _ _ _ I _ _ Hi).
  - intros i j a b k Ha Hb Ka Kb. rewrite <- (mi_key _ _ _ I _ _ _ Ha Ka), <- (mi_key _ _ _ I _ _ _ Hb Kb). reflexivity.
  - exists n, x. split; [exact A|]. split; [|auto]. destruct (In_nth_error _ _ B1) as [i Hi]. pose proof (mi_key _ _ _ I _ _ _ Hi B2) as K.
    unfold ma_get. rewrite K, Hi. intros Z. revert B2 Z. clear. unfold keys. induction b as [|[k g] b IH]; cbn; [tauto|].
    unfold name_eqb at 1. destruct (list_eq_dec ascii_dec n k), (list_eq_dec ascii_dec k n); try discriminate; try congruence. intros [J|J]; [congruence|auto].
Qed.
Print Assumptions C104_pushout_at.
Example C104_pushout_at_witness : exists outs m l a m1 l2 m2, fm_run ne_rev mx_hash (ma_new mx_o) (firstn 5 ma_ops) = Ok (outs, m) /\
  fm_do ne_rev mx_hash (FmPushout true (fun l => l) (Some (nd, PfRequest))) m = Ok (FmThrew l [(nd, a)], m1) /\ map fst l = [na] /\
  fm_do ne_rev mx_hash (FmPushout true (fun l => l) (Some (nd, PfDetach))) m = Ok (FmThrew l2 [], m2) /\ map fst l2 = [na].
Proof. eexists _, _, _, _, _, _, _. split; [vm_compute; reflexivity|]. split; [vm_compute; reflexivity|]. split; [reflexivity|]. split; [vm_compute; reflexivity|reflexivity]. Qed.
