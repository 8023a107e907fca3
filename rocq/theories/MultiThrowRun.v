(** Histories of a multi_aggregator whose handler throws; force_pushout repeated. *)
From Coq Require Import ZArith List Bool Permutation Lia Arith Ascii.
From Verif Require Import Base ModelTypes ModelAvg ModelReducer SpecReducer ModelSeparator SpecSeparator SepProofs
  ModelAggregator SpecAggregator AggProofs AggRun AggFinal AggSafe ModelRegistry SpecRegistry RegProofs ModelMulti SpecMulti MultiProofs MultiRun
  ModelThrow SpecThrow ThrowProofs ThrowSys ModelMultiThrow SpecMultiThrow MultiThrowProofs.
Import ListNotations.
Local Open Scope Z_scope.

Definition opt1 {A} (a : option A) : list A := match a with Some x => [x] | None => [] end.
Lemma of_name_cons {A} n k (x : A) l : of_name n ((k, x) :: l) = if name_eqb n k then x :: of_name n l else of_name n l.
Proof. unfold of_name. cbn [filter fst]. destruct (name_eqb n k); reflexivity. Qed.
Lemma find_key n b g : bm_find n b = Some g -> In n (keys b).
Proof. intros F. destruct (in_dec (list_eq_dec ascii_dec) n (keys b)) as [|Y]; auto. apply bm_find_none in Y. congruence. Qed.
Lemma app_nodup {A} (l1 l2 : list A) : NoDup (l1 ++ l2) -> NoDup l1 /\ NoDup l2 /\ forall x, In x l1 -> ~ In x l2.
Proof.
  induction l1 as [|a l1 IH]; cbn [app]; intros H; [repeat split; auto; constructor|]. inversion H; subst. destruct (IH H3) as (A1 & A2 & A3).
  split; [constructor; auto; intros I; apply H2, in_app_iff; auto|]. split; [auto|]. intros x [<-|I]; [intros J; apply H2, in_app_iff; auto|auto].
Qed.

Section Nth.
  Variable ne : nat -> list Z -> list Z.

  (** What happened to the aggregator of one name in a pushout; [r]: the handler threw. *)
  Definition cell (r force : bool) (c c' : option agg) (recs : list adata) : Prop :=
    (exists g a g', c = Some g /\ pop1 ne force g = Ok (a, g') /\ c' = Some g' /\ recs = opt1 a) \/
    (c' = c /\ recs = [] /\ (r = true \/ c = None)).

  Lemma loop_t_spec th force : forall ks b r l b1, NoDup ks -> NoDup (keys b) -> (forall k, In k ks -> In k (keys b)) ->
    bm_loop_t ne th force ks b = Ok (r, l, b1) ->
    keys b1 = keys b /\ (forall n, In n ks -> cell r force (bm_find n b) (bm_find n b1) (of_name n l)) /\
    (forall n, ~ In n ks -> bm_find n b1 = bm_find n b /\ of_name n l = []).
  Proof.
    induction ks as [|k ks IH]; intros b r l b1 NK NB S E; cbn [bm_loop_t] in E.
    - injection E as <- <- <-. split; [reflexivity|]. split; [intros n []|]. auto.
    - inversion NK; subst. destruct (bm_find k b) as [g|] eqn:F; [|exfalso; apply bm_find_none in F; apply F, S; left; auto].
      fold (pop1 ne force g) in E. destruct (pop1 ne force g) as [[a g1]| |] eqn:P; cbn [bind] in E; try discriminate.
      assert (K1 : keys (bm_set k g1 b) = keys b) by (rewrite bm_set_keys, F; auto).
      assert (O : forall n, n <> k -> bm_find n (bm_set k g1 b) = bm_find n b).
      { intros n Hn. rewrite bm_set_find. destruct (name_eqb_spec k n); congruence. }
      assert (X : forall l2, bm_loop_t ne th force ks (bm_set k g1 b) = Ok (r, l2, b1) -> l = map (fun x => (k, x)) (opt1 a) ++ l2 ->
        keys b1 = keys b /\ (forall n, In n (k :: ks) -> cell r force (bm_find n b) (bm_find n b1) (of_name n l)) /\
        (forall n, ~ In n (k :: ks) -> bm_find n b1 = bm_find n b /\ of_name n l = [])).
      { intros l2 E2 ->. destruct (IH _ _ _ _ H2 ltac:(rewrite K1; auto) ltac:(intros x Hx; rewrite K1; apply S; right; auto) E2) as (A1 & A2 & A3).
        split; [congruence|]. split.
        - intros n [<-|I].
          + destruct (A3 k H1) as [B1 B2]. rewrite of_name_app, B2, app_nil_r, B1, bm_set_find, name_eqb_refl. left.
            exists g, a, g1. split; [exact F|]. split; [exact P|]. split; [reflexivity|].
            pose proof (of_name_own (B := adata) k (fun x => x) (opt1 a)) as W. rewrite map_id in W. exact W.
          + assert (n <> k) by congruence. rewrite of_name_app, (of_name_other (B := adata) n k (fun x => x)) by congruence. specialize (A2 n I). rewrite O in A2 by auto. exact A2.
        - intros n I. assert (n <> k) by (intros ->; apply I; left; auto). destruct (A3 n) as [B1 B2]; [intros J; apply I; right; auto|].
          rewrite of_name_app, (of_name_other (B := adata) n k (fun x => x)), B2, B1, O by congruence. auto. }
      destruct a as [x|]; [|exact (X l E eq_refl)]. destruct (th k x) eqn:T.
      + injection E as <- <- <-. split; [exact K1|]. split.
        * intros n I. rewrite of_name_cons. destruct (name_eqb_spec n k) as [->|N].
          -- left. exists g, (Some x), g1. rewrite bm_set_find, name_eqb_refl. auto.
          -- right. rewrite O by auto. auto.
        * intros n I. assert (n <> k) by (intros ->; apply I; left; auto). rewrite O by auto. split; [reflexivity|]. rewrite of_name_cons.
          destruct (name_eqb_spec n k); [congruence|reflexivity].
      + destruct (bm_loop_t _ _ _ _ _) as [[[r2 l2] b2]| |] eqn:L; cbn [bind] in E; try discriminate. injection E as <- <- <-. exact (X l2 eq_refl eq_refl).
  Qed.
  Lemma pushout_t_spec th force ord b r l b1 : (forall l, Permutation (ord l) l) -> NoDup (keys b) ->
    bm_pushout_t ne th force ord b = Ok (r, l, b1) ->
    keys b1 = keys b /\ (forall n, cell r force (bm_find n b) (bm_find n b1) (of_name n l)) /\ (forall n, ~ In n (keys b) -> of_name n l = []).
  Proof.
    intros O N E. unfold bm_pushout_t in E. specialize (O (keys b)).
    destruct (loop_t_spec th force _ _ _ _ _ (Permutation_NoDup (Permutation_sym O) N) N ltac:(intros k; apply Permutation_in, O) E) as (A1 & A2 & A3).
    split; [exact A1|].
    assert (Z : forall n, ~ In n (keys b) -> ~ In n (ord (keys b))) by (intros n I J; apply I; exact (Permutation_in _ O J)).
    split; [|intros n I; apply A3, Z, I]. intros n. destruct (in_dec (list_eq_dec ascii_dec) n (keys b)) as [I|I].
    - apply A2. exact (Permutation_in _ (Permutation_sym O) I).
    - destruct (A3 n (Z n I)) as [B1 B2]. right. split; [exact B1|]. split; [exact B2|]. right. now apply bm_find_none.
  Qed.
  Lemma shards_t_spec th force ord : (forall l, Permutation (ord l) l) -> forall bs r l bs1, NoDup (flat_map keys bs) ->
    ma_shards_t ne th force ord bs = Ok (r, l, bs1) ->
    length bs1 = length bs /\ (forall n, ~ In n (flat_map keys bs) -> of_name n l = []) /\
    (forall i b, nth_error bs i = Some b -> exists b1, nth_error bs1 i = Some b1 /\ keys b1 = keys b /\
      (forall n, ~ In n (keys b) -> bm_find n b1 = None) /\ (forall n, In n (keys b) -> cell r force (bm_find n b) (bm_find n b1) (of_name n l))).
  Proof.
    intros O. induction bs as [|b bs IH]; intros r l bs1 ND E; cbn [ma_shards_t] in E.
    - injection E as <- <- <-. split; [reflexivity|]. split; [auto|]. intros i b H. destruct i; discriminate.
    - cbn [flat_map] in ND. destruct (app_nodup _ _ ND) as (NB & NR & D).
      destruct (bm_pushout_t _ _ _ _ _) as [[[r1 l1] b1]| |] eqn:E1; cbn [bind] in E; try discriminate.
      destruct (pushout_t_spec _ _ _ _ _ _ _ O NB E1) as (A1 & A2 & A3).
      assert (K : forall n, ~ In n (keys b) -> bm_find n b1 = None) by (intros n I; apply bm_find_none; rewrite A1; exact I).
      destruct r1.
      + injection E as <- <- <-. split; [reflexivity|]. split; [intros n I; apply A3; intros J; apply I, in_app_iff; auto|].
        intros i x H. destruct i; cbn in H.
        * injection H as <-. exists b1. split; [reflexivity|]. split; [exact A1|]. split; [exact K|]. intros n _. apply A2.
        * exists x. split; [exact H|]. split; [reflexivity|]. split; [intros n I; now apply bm_find_none|]. intros n I. right. split; [reflexivity|].
          split; [|auto]. apply A3. intros J. apply (D n J). apply in_flat_map. exists x. split; [eapply nth_error_In; eauto|exact I].
      + destruct (ma_shards_t _ _ _ _ _) as [[[r2 l2] t1]| |] eqn:E2; cbn [bind] in E; try discriminate. injection E as <- <- <-.
        destruct (IH _ _ _ NR eq_refl) as (B1 & B2 & B3). split; [cbn; congruence|]. split.
        { intros n I. rewrite of_name_app, A3, B2; auto; intros J; apply I, in_app_iff; auto. }
        intros i x H. destruct i; cbn in H.
        * injection H as <-. exists b1. split; [reflexivity|]. split; [exact A1|]. split; [exact K|]. intros n I.
          rewrite of_name_app, (B2 n (D n I)), app_nil_r. destruct (A2 n) as [W|(W1 & W2 & [W3|W3])]; [left; exact W|discriminate|].
          right. auto.
        * destruct (B3 _ _ H) as (x1 & C1 & C2 & C3 & C4). exists x1. split; [exact C1|]. split; [exact C2|]. split; [exact C3|]. intros n I.
          rewrite of_name_app, A3, app_nil_l; [apply C4; exact I|]. intros J. apply (D n J). apply in_flat_map. exists x.
          split; [eapply nth_error_In; eauto|exact I].
  Qed.

  (** * force_pushout repeated *)
  Lemma force_twice g a g1 : s_list (g_sep g) = [] -> g_force_pop ne g = Ok (a, g1) -> g_force_pop ne g1 = Ok (None, g1).
  Proof.
    intros El E. unfold g_force_pop, s_force_pop, s_pop in E. rewrite El in E.
    destruct (r_detach ne (s_red (g_sep g))) as [[x r]| |] eqn:D; cbn [bind] in E; try discriminate. apply detach_empty in D.
    set (s1 := mk_sep r (s_step (g_sep g)) (s_next (g_sep g)) (s_res (g_sep g)) []) in *.
    assert (W : g_force_pop ne (g_set_sep s1 g) = Ok (None, g_set_sep s1 g)).
    { unfold g_force_pop, s_force_pop, s_pop. cbn [g_set_sep g_sep s1 s_list s_red s_step s_next s_res].
      rewrite (detach_none ne r D). reflexivity. }
    destruct x as [x|].
    - destruct (chk _); cbn [bind] in E; try discriminate. destruct (g_finish _ _ _); cbn [bind] in E; try discriminate.
      injection E as _ <-. exact W.
    - cbn [bind] in E. injection E as _ <-. exact W.
  Qed.
  Definition no_list (b : bmulti) : Prop := forall n g, bm_find n b = Some g -> quiet g.
  Lemma set_quiet n g1 b : no_list b -> quiet g1 -> no_list (bm_set n g1 b).
  Proof. intros Q Q1 k g. rewrite bm_set_find. destruct (name_eqb n k); [intros E; injection E as <-; auto|apply Q]. Qed.
  Lemma force_quiet g a g1 : quiet g -> g_force_pop ne g = Ok (a, g1) -> quiet g1.
  Proof. intros Q E. eapply (quiet_force ne); [exact Q|]. cbn [g_call]. rewrite E. reflexivity. Qed.
  Lemma loop_frame th force : forall ks b r l b1, bm_loop_t ne th force ks b = Ok (r, l, b1) -> keys b1 = keys b /\ forall n, ~ In n ks -> bm_find n b1 = bm_find n b.
  Proof.
    induction ks as [|k ks IH]; intros b r l b1 E; cbn [bm_loop_t] in E; [injection E as _ _ <-; auto|].
    destruct (bm_find k b) as [g|] eqn:F; [|destruct (IH _ _ _ _ E); split; auto; intros n I; apply H0; intros J; apply I; right; auto].
    destruct (if force then _ else _) as [[a g1]| |]; cbn [bind] in E; try discriminate.
    assert (K1 : keys (bm_set k g1 b) = keys b) by (rewrite bm_set_keys, F; auto).
    assert (O : forall n, ~ In n (k :: ks) -> bm_find n (bm_set k g1 b) = bm_find n b).
    { intros n Hn. rewrite bm_set_find. destruct (name_eqb_spec k n) as [->|]; [exfalso; apply Hn; left; auto|reflexivity]. }
    assert (X : forall r l2, bm_loop_t ne th force ks (bm_set k g1 b) = Ok (r, l2, b1) -> keys b1 = keys b /\ forall n, ~ In n (k :: ks) -> bm_find n b1 = bm_find n b).
    { intros r0 l2 E2. destruct (IH _ _ _ _ E2) as [A1 A2]. split; [congruence|]. intros n I. rewrite A2; [apply O; exact I|]. intros J; apply I; right; auto. }
    destruct a as [x|]; [|eauto]. destruct (th k x); [injection E as _ _ <-; auto|].
    destruct (bm_loop_t _ _ _ _ _) as [[[r2 l2] b2]| |] eqn:L; cbn [bind] in E; try discriminate. injection E as _ _ <-. eauto.
  Qed.
  Lemma loop_plain_frame force h : forall ks b l b1, bm_loop ne force h ks b = Ok (l, b1) -> forall n, ~ In n ks -> bm_find n b1 = bm_find n b.
  Proof.
    induction ks as [|k ks IH]; intros b l b1 E n I; cbn [bm_loop] in E; [injection E as _ <-; auto|].
    assert (I2 : ~ In n ks) by (intros J; apply I; right; auto).
    destruct (bm_find k b) as [g|] eqn:F; [|eauto]. destruct (if force then _ else _) as [[a g1]| |]; cbn [bind] in E; try discriminate.
    destruct (match a with Some _ => _ | None => _ end); cbn [bind] in E; try discriminate.
    destruct (bm_loop _ _ _ _ _) as [[l2 b2]| |] eqn:L; cbn [bind] in E; try discriminate. injection E as _ <-.
    rewrite (IH _ _ _ L n I2), bm_set_find. destruct (name_eqb_spec k n) as [->|]; [exfalso; apply I; left; auto|reflexivity].
  Qed.
  Lemma loop_retry th : forall ks b l b2 l1 b1, NoDup ks -> NoDup (keys b) -> no_list b ->
    bm_loop ne true true ks b = Ok (l, b2) -> bm_loop_t ne th true ks b = Ok (true, l1, b1) ->
    exists l2, bm_loop ne true true ks b1 = Ok (l2, b2) /\ l = l1 ++ l2.
  Proof.
    induction ks as [|k ks IH]; intros b l b2 l1 b1 NK NB Q E T; cbn [bm_loop bm_loop_t] in *; [discriminate|]. inversion NK; subst.
    destruct (bm_find k b) as [g|] eqn:F.
    - destruct (g_force_pop ne g) as [[a g1]| |] eqn:P; cbn [bind] in *; try discriminate.
      pose proof (force_twice _ _ _ (proj2 (Q _ _ F)) P) as W. pose proof (force_quiet _ _ _ (Q _ _ F) P) as Q1.
      assert (K1 : NoDup (keys (bm_set k g1 b))) by (rewrite bm_set_keys, F; auto).
      assert (X : forall l1 l, bm_loop ne true true ks (bm_set k g1 b) = Ok (l, b2) -> bm_loop_t ne th true ks (bm_set k g1 b) = Ok (true, l1, b1) ->
        exists l2, match bm_find k b1 with
                   | Some g => '(a, g1) <- g_force_pop ne g;; l <- match a with Some x => Ok [(k, x)] | None => Ok [] end;; '(l2, m2) <- bm_loop ne true true ks (bm_set k g1 b1);; Ok (l ++ l2, m2)
                   | None => bm_loop ne true true ks b1 end = Ok (l2, b2) /\ l = l1 ++ l2).
      { intros l1' l' E' T'. destruct (IH _ _ _ _ _ H2 K1 (set_quiet _ _ _ Q Q1) E' T') as (l2 & R & ->). destruct (loop_frame _ _ _ _ _ _ _ T') as [A1 A2].
        assert (Fk : bm_find k b1 = Some g1) by (rewrite A2, bm_set_find, name_eqb_refl; auto). rewrite Fk, W. cbn [bind].
        rewrite bm_set_id by (rewrite ?A1; auto). rewrite R. cbn [bind app]. eauto. }
      destruct a as [x|]; cbn [bind] in E; destruct (bm_loop ne true true ks _) as [[l0 b0]| |] eqn:L; cbn [bind] in E; try discriminate; injection E as <- <-.
      + destruct (th k x).
        * injection T as <- <-. rewrite bm_set_find, name_eqb_refl, W. cbn [bind]. rewrite bm_set_id by (auto; rewrite bm_set_find, name_eqb_refl; auto).
          rewrite L. cbn [bind app]. eauto.
        * destruct (bm_loop_t _ _ _ _ _) as [[[r lt] bt]| |] eqn:LT; cbn [bind] in T; try discriminate. injection T as -> <- <-.
          destruct (X _ _ eq_refl eq_refl) as (l2 & R & ->). exists l2. split; [exact R|reflexivity].
      + exact (X _ _ eq_refl T).
    - destruct (IH _ _ _ _ _ H2 NB Q E T) as (l2 & R & ->). destruct (loop_frame _ _ _ _ _ _ _ T) as [A1 A2]. rewrite A2, F by auto. eauto.
  Qed.
  Lemma loop_again : forall ks b l b2, NoDup ks -> NoDup (keys b) -> no_list b ->
    bm_loop ne true true ks b = Ok (l, b2) -> bm_loop ne true true ks b2 = Ok ([], b2) /\ keys b2 = keys b.
  Proof.
    induction ks as [|k ks IH]; intros b l b2 NK NB Q E; cbn [bm_loop] in *; [injection E as _ <-; auto|]. inversion NK; subst.
    destruct (bm_find k b) as [g|] eqn:F.
    - destruct (g_force_pop ne g) as [[a g1]| |] eqn:P; cbn [bind] in *; try discriminate.
      pose proof (force_twice _ _ _ (proj2 (Q _ _ F)) P) as W. pose proof (force_quiet _ _ _ (Q _ _ F) P) as Q1.
      assert (K0 : keys (bm_set k g1 b) = keys b) by (rewrite bm_set_keys, F; auto). assert (K1 : NoDup (keys (bm_set k g1 b))) by (rewrite K0; auto).
      assert (L : exists l0, bm_loop ne true true ks (bm_set k g1 b) = Ok (l0, b2)).
      { destruct a as [x|]; cbn [bind] in E; destruct (bm_loop ne true true ks _) as [[l0 b0]| |] eqn:L; cbn [bind] in E; try discriminate; injection E as _ <-; eauto. }
      destruct L as [l0 L]. destruct (IH _ _ _ H2 K1 (set_quiet _ _ _ Q Q1) L) as [R K].
      assert (Fk : bm_find k b2 = Some g1) by (rewrite (loop_plain_frame _ _ _ _ _ _ L k H1), bm_set_find, name_eqb_refl; auto).
      rewrite Fk, W. cbn [bind]. rewrite bm_set_id by (auto; congruence). rewrite R. cbn [bind app]. split; [reflexivity|congruence].
    - destruct (IH _ _ _ H2 NB Q E) as [R K]. rewrite (loop_plain_frame _ _ _ _ _ _ E k H1), F. auto.
  Qed.
  Lemma shards_retry th ord : (forall l, Permutation (ord l) l) -> forall bs l bs2 l1 bs1, (forall b, In b bs -> NoDup (keys b) /\ no_list b) ->
    ma_shards ne true true ord bs = Ok (l, bs2) -> ma_shards_t ne th true ord bs = Ok (true, l1, bs1) ->
    exists l2, ma_shards ne true true ord bs1 = Ok (l2, bs2) /\ l = l1 ++ l2.
  Proof.
    intros O. induction bs as [|b bs IH]; intros l bs2 l1 bs1 H E T; cbn [ma_shards ma_shards_t] in *; [discriminate|].
    destruct (H b (or_introl eq_refl)) as [NB QB]. assert (NO : NoDup (ord (keys b))) by (exact (Permutation_NoDup (Permutation_sym (O _)) NB)).
    unfold bm_pushout, bm_pushout_t in *. destruct (bm_loop ne true true _ b) as [[la ba]| |] eqn:L; cbn [bind] in E; try discriminate.
    destruct (ma_shards ne true true ord bs) as [[lb tb]| |] eqn:S; cbn [bind] in E; try discriminate. injection E as <- <-.
    destruct (bm_loop_t ne th true _ b) as [[[r lt] bt]| |] eqn:LT; cbn [bind] in T; try discriminate. destruct r.
    - injection T as <- <-. destruct (loop_retry th _ _ _ _ _ _ NO NB QB L LT) as (l2 & R & ->). destruct (loop_frame _ _ _ _ _ _ _ LT) as [K _].
      cbn [ma_shards]. unfold bm_pushout. replace (map fst bt) with (map fst b) by (symmetry; exact K). change (keys b) with (map fst b) in R. rewrite R. cbn [bind]. rewrite S. cbn [bind].
      exists (l2 ++ lb). split; [reflexivity|now rewrite app_assoc].
    - destruct (ma_shards_t ne th true ord bs) as [[[r2 l2] t2]| |] eqn:ST; cbn [bind] in T; try discriminate. injection T as -> <- <-.
      apply MultiThrowProofs.loop_t_back in LT. assert (la = lt /\ ba = bt) as [-> ->] by (change (map fst b) with (keys b) in *; split; congruence).
      destruct (IH _ _ _ _ (fun x Hx => H x (or_intror Hx)) eq_refl eq_refl) as (l3 & R & ->).
      destruct (loop_again _ _ _ _ NO NB QB LT) as [R2 K]. cbn [ma_shards]. unfold bm_pushout. replace (map fst bt) with (map fst b) by (symmetry; exact K). change (keys b) with (map fst b) in R2. rewrite R2. cbn [bind].
      rewrite R. cbn [bind app]. exists l3. split; [reflexivity|now rewrite app_assoc].
  Qed.
End Nth.
