(** Sharding refines a single map. *)
From Coq Require Import ZArith List Bool Permutation Lia Arith Ascii.
From Verif Require Import Base ModelTypes ModelAvg ModelReducer SpecReducer ModelSeparator SpecSeparator
  ModelAggregator SpecAggregator ModelRegistry SpecRegistry RegProofs ModelMulti SpecMulti.
Import ListNotations.
Local Open Scope Z_scope.

Definition keys (b : bmulti) := map fst b.

Lemma bm_find_in n g b : NoDup (keys b) -> (In (n, g) b <-> bm_find n b = Some g).
Proof.
  unfold bm_find. induction b as [|[k v] b IH]; simpl; intros ND; [split; [tauto|discriminate]|].
  inversion ND; subst. destruct (name_eqb_spec n k) as [->|N].
  - split; intros E.
    + destruct E as [E|E]; [congruence|]. exfalso. apply H1. change k with (fst (k, g)). now apply in_map.
    + left. congruence.
  - rewrite <- IH by auto. split; [intros [E|E]; [congruence|auto]|auto].
Qed.
Lemma bm_find_none n b : bm_find n b = None <-> ~ In n (keys b).
Proof.
  unfold bm_find. induction b as [|[k v] b IH]; simpl; [tauto|]. destruct (name_eqb_spec n k) as [->|N]; [|rewrite IH].
  - split; [discriminate|intros H; exfalso; auto].
  - split; [intros H [E|E]; congruence|auto].
Qed.
Lemma find_map_set n g b k : bm_find k (map (fun p : name * agg => if name_eqb n (fst p) then (fst p, g) else p) b) =
  if name_eqb n k then match bm_find k b with Some _ => Some g | None => None end else bm_find k b.
Proof.
  unfold bm_find. induction b as [|[x v] b IH]; simpl; [now destruct name_eqb|].
  destruct (name_eqb_spec n x) as [->|N]; simpl.
  - destruct (name_eqb_spec k x) as [->|N2]; [now rewrite name_eqb_refl|]. rewrite IH. now destruct (name_eqb_spec x k).
  - destruct (name_eqb_spec k x) as [->|N2]; [|exact IH]. now destruct (name_eqb_spec n x).
Qed.
Lemma bm_set_find n g b k : bm_find k (bm_set n g b) = if name_eqb n k then Some g else bm_find k b.
Proof.
  unfold bm_set. destruct (bm_find n b) eqn:E.
  - rewrite find_map_set. destruct (name_eqb_spec n k) as [->|N]; auto. now rewrite E.
  - simpl. unfold bm_find at 1. simpl. fold (bm_find k b).
    destruct (name_eqb_spec k n), (name_eqb_spec n k); congruence.
Qed.
Lemma bm_set_keys n g b : keys (bm_set n g b) = match bm_find n b with None => n :: keys b | Some _ => keys b end.
Proof.
  unfold bm_set, keys. destruct (bm_find n b); auto. rewrite map_map. apply map_ext. intros [k v]. simpl. now destruct name_eqb.
Qed.
Lemma erase_keys n b k : In k (keys (m_erase name_eqb n b)) -> In k (keys b).
Proof. unfold keys, m_erase. rewrite !in_map_iff. intros (p & E & H). apply filter_In in H. exists p. tauto. Qed.
Lemma erase_nodup n b : NoDup (keys b) -> NoDup (keys (m_erase name_eqb n b)).
Proof.
  induction b as [|[k v] b IH]; simpl; auto. intros H. inversion H; subst. destruct (negb _); simpl; auto.
  constructor; auto. intros I. apply H2. eapply erase_keys; eauto.
Qed.

(** * Traversal *)
Section Nth.
  Variable ne : nat -> list Z -> list Z.

  Definition pop1 (force : bool) (g : agg) := if force then g_force_pop ne g else Ok (g_pop g).
  Lemma pop1_call force g : g_call ne (pop_call force) g = ('(a, g1) <- pop1 force g ;; Ok (mk_sout None [] a, g1)).
  Proof. destruct force; reflexivity. Qed.

  Lemma loop_spec force h : forall ks b l b', NoDup ks -> NoDup (keys b) -> (forall k, In k ks -> In k (keys b)) ->
    bm_loop ne force h ks b = Ok (l, b') ->
    keys b' = keys b /\ NoDup (map fst l) /\ (forall n a, In (n, a) l -> In n ks) /\ (h = false -> l = []) /\
    (forall n a, In n ks -> (In (n, a) l <-> exists g g', bm_find n b = Some g /\ pop1 force g = Ok (Some a, g'))) /\
    (forall n, In n ks -> exists g a g', bm_find n b = Some g /\ pop1 force g = Ok (a, g') /\ bm_find n b' = Some g') /\
    (forall n, ~ In n ks -> bm_find n b' = bm_find n b).
  Proof.
    induction ks as [|k ks IH]; intros b l b' NK NB S E.
    - simpl in E. injection E as <- <-. simpl. repeat split; auto; try constructor; try tauto.
    - inversion NK; subst. cbn [bm_loop] in E.
      destruct (bm_find k b) as [g|] eqn:F; [|exfalso; apply bm_find_none in F; apply F, S; left; auto].
      fold (pop1 force g) in E. destruct (pop1 force g) as [[a g1]| |] eqn:P; try discriminate. cbn [bind] in E.
      set (l0 := match a with Some x => [(k, x)] | None => [] end).
      assert (E1 : exists l2, bm_loop ne force h ks (bm_set k g1 b) = Ok (l2, b') /\ l = l0 ++ l2 /\ (h = false -> a = None)).
      { destruct a as [x|]; [destruct h; [|discriminate]|]; cbn [bind] in E;
          destruct (bm_loop _ _ _ _ _) as [[l2 m2]| |]; try discriminate; injection E as <- <-; eexists; repeat split; auto; discriminate. }
      destruct E1 as (l2 & E2 & -> & Hh). clear E.
      assert (K1 : keys (bm_set k g1 b) = keys b) by (rewrite bm_set_keys, F; auto).
      destruct (IH (bm_set k g1 b) l2 b') as (A1 & A2 & A3 & A4 & A5 & A6 & A7); auto; try (rewrite K1; auto; fail).
      { intros x Hx. rewrite K1. apply S. right. auto. }
      assert (O : forall n, n <> k -> bm_find n (bm_set k g1 b) = bm_find n b).
      { intros n Hn. rewrite bm_set_find. destruct (name_eqb_spec k n); congruence. }
      assert (L0 : forall n x, In (n, x) l0 -> n = k /\ a = Some x).
      { intros n x. unfold l0. destruct a; simpl; [|tauto]. intros [E|[]]. inversion E; subst. auto. }
      split; [congruence|]. split; [|split; [|split; [|split; [|split]]]].
      + rewrite map_app. unfold l0. destruct a as [x|]; simpl; auto. constructor; auto.
        intros I. apply in_map_iff in I. destruct I as ([n y] & E & I). simpl in E. subst n. apply A3 in I. auto.
      + intros n x I. apply in_app_iff in I. destruct I as [I|I]; [left; symmetry; apply (L0 _ _ I)|right; eauto].
      + intros Hf. rewrite (A4 Hf). unfold l0. rewrite (Hh Hf). auto.
      + intros n x [<-|I].
        * rewrite in_app_iff. split.
          -- intros [I|I]; [|exfalso; apply A3 in I; auto]. apply L0 in I. destruct I as [_ ->]. eauto.
          -- intros (g' & g'' & E & P'). rewrite F in E. injection E as <-. rewrite P in P'. injection P' as -> ->. left. left. auto.
        * assert (n <> k) by congruence. rewrite in_app_iff, (A5 n x I), O by auto. split; [|auto].
          intros [I'|I']; auto. apply L0 in I'. tauto.
      + intros n [<-|I].
        * exists g, a, g1. rewrite A7 by auto. rewrite bm_set_find, name_eqb_refl. auto.
        * destruct (A6 n I) as (g' & a' & g'' & B1 & B2 & B3). rewrite O in B1 by congruence. eauto 8.
      + intros n I. rewrite A7, O; auto; intros J; apply I; [left|right]; auto.
  Qed.

  Lemma pushout_spec force h ord b l b' : (forall l, Permutation (ord l) l) -> NoDup (keys b) ->
    bm_pushout ne force h ord b = Ok (l, b') ->
    keys b' = keys b /\ NoDup (map fst l) /\ (h = false -> l = []) /\
    (forall n a, In (n, a) l <-> exists g g', bm_find n b = Some g /\ pop1 force g = Ok (Some a, g')) /\
    (forall n, match bm_find n b with
               | None => bm_find n b' = None
               | Some g => exists a g', pop1 force g = Ok (a, g') /\ bm_find n b' = Some g' end).
  Proof.
    intros O NB E. unfold bm_pushout in E. specialize (O (keys b)).
    destruct (loop_spec force h _ b l b' (Permutation_NoDup (Permutation_sym O) NB) NB) with (2 := E) as (A1 & A2 & A3 & A4 & A5 & A6 & A7).
    { intros k. apply Permutation_in, O. }
    split; auto. split; auto. split; auto. split.
    - intros n a. split; intros H.
      + apply A5; auto. eapply A3; eauto.
      + apply A5; auto. apply (Permutation_in _ (Permutation_sym O)). destruct H as (g & g' & F & _).
        destruct (in_dec (list_eq_dec ascii_dec) n (keys b)) as [I|I]; auto. apply bm_find_none in I. congruence.
    - intros n. destruct (bm_find n b) as [g|] eqn:F.
      + destruct (A6 n) as (g' & a & g'' & B1 & B2 & B3).
        { apply (Permutation_in _ (Permutation_sym O)).
          destruct (in_dec (list_eq_dec ascii_dec) n (keys b)) as [I|I]; auto. apply bm_find_none in I. congruence. }
        rewrite F in B1. injection B1 as <-. eauto.
      + apply bm_find_none. rewrite A1. now apply bm_find_none.
  Qed.
End Nth.

(** * Sharded map *)
Section Hash.
  Variable ne : nat -> list Z -> list Z.
  Variable hash : name -> Z.
  Variable o : maopts.

  Notation shard_of := (SpecMulti.shard_of hash o).
  Notation ma_get := (SpecMulti.ma_get hash o).
  Record MInv (m : multi) : Prop := {
    mi_opt : mu_opt m = o;
    mi_pos : (0 < ma_hash o)%nat;
    mi_len : length (mu_list m) = ma_hash o;
    mi_nd : forall i b, nth_error (mu_list m) i = Some b -> NoDup (keys b);
    mi_key : forall i b k, nth_error (mu_list m) i = Some b -> In k (keys b) -> shard_of k = i }.

  Lemma shard_lt n : (0 < ma_hash o)%nat -> (shard_of n < ma_hash o)%nat.
  Proof.
    intros H. unfold SpecMulti.shard_of. pose proof (Z.mod_pos_bound (u64 (hash n)) (Z.of_nat (ma_hash o)) ltac:(lia)). lia.
  Qed.
  Lemma MInv_new : (0 < ma_hash o)%nat -> MInv (ma_new o).
  Proof.
    intros H. constructor; auto; simpl.
    - apply repeat_length.
    - intros i b E. apply nth_error_In, repeat_spec in E. subst. constructor.
    - intros i b k E. apply nth_error_In, repeat_spec in E. subst. intros [].
  Qed.
  Lemma get_new n : ma_get (ma_new o) n = None.
  Proof.
    unfold SpecMulti.ma_get, ma_new. simpl. destruct (nth_error _ _) eqn:E; auto.
    apply nth_error_In, repeat_spec in E. now subst.
  Qed.
  Lemma pos_ok m n : MInv m -> ma_pos hash n m = Ok (shard_of n).
  Proof. intros I. destruct I. unfold ma_pos. rewrite mi_opt0. unfold SpecMulti.shard_of. destruct (Z.eqb_spec (Z.of_nat (ma_hash o)) 0); [lia|auto]. Qed.
  Lemma shard_ok m n : MInv m -> exists b, nth_error (mu_list m) (shard_of n) = Some b /\ ma_shard (shard_of n) m = Ok b /\ ma_get m n = bm_find n b.
  Proof.
    intros I. destruct (nth_error (mu_list m) (shard_of n)) as [b|] eqn:E.
    - exists b. unfold ma_shard, SpecMulti.ma_get. rewrite E. auto.
    - exfalso. apply nth_error_None in E. pose proof (shard_lt n (mi_pos _ I)). rewrite (mi_len _ I) in E. lia.
  Qed.
  Lemma put_inv m n b b1 : MInv m -> nth_error (mu_list m) (shard_of n) = Some b -> NoDup (keys b1) ->
    (forall k, In k (keys b1) -> k = n \/ In k (keys b)) ->
    (forall k, k <> n -> bm_find k b1 = bm_find k b) ->
    MInv (ma_put (shard_of n) b1 m) /\ update (ma_get m) n (bm_find n b1) (ma_get (ma_put (shard_of n) b1 m)).
  Proof.
    intros I E N K F. assert (L : (shard_of n < length (mu_list m))%nat) by (eapply nth_error_lt; eauto). split.
    - destruct I. constructor; simpl; auto.
      + now rewrite set_nth_length.
      + intros i x H. destruct (Nat.eq_dec (shard_of n) i) as [<-|Ne].
        * rewrite set_nth_same in H by auto. congruence.
        * rewrite set_nth_other in H by auto. eauto.
      + intros i x k H. destruct (Nat.eq_dec (shard_of n) i) as [<-|Ne].
        * rewrite set_nth_same in H by auto. injection H as <-. intros Hk. destruct (K k Hk) as [->|Hk']; auto. eauto.
        * rewrite set_nth_other in H by auto. eauto.
    - split.
      + unfold SpecMulti.ma_get, ma_put. simpl. now rewrite set_nth_same.
      + intros k Hk. unfold SpecMulti.ma_get, ma_put. simpl. destruct (Nat.eq_dec (shard_of n) (shard_of k)) as [H|H].
        * rewrite <- H, set_nth_same, E by auto. auto.
        * now rewrite set_nth_other.
  Qed.

  Lemma push_sim m e n d h b l m1 : MInv m -> ma_push ne hash e n d h m = Ok (b, l, m1) ->
    MInv m1 /\ single_push ne (ma_agg o) e n d h (ma_get m) b l (ma_get m1).
  Proof.
    intros I E. unfold ma_push in E. rewrite (pos_ok m n I) in E. cbn [bind] in E.
    destruct (shard_ok m n I) as (s & E1 & E2 & E3). rewrite E2 in E. cbn [bind] in E.
    unfold bm_push in E. rewrite (mi_opt _ I) in E.
    destruct (match bm_find n s with Some g => Ok g | None => _ end) as [g| |] eqn:G; try discriminate. cbn [bind] in E.
    destruct (g_push_red _ _ _ _ _ _) as [[[r recs] g1]| |] eqn:P; try discriminate. cbn [bind] in E.
    assert (E4 : b = r /\ l = map (fun a => (n, only_reduced a)) recs /\ m1 = ma_put (shard_of n) (bm_set n g1 s) m /\ (h = false -> recs = [])).
    { destruct h; [|destruct recs; [|discriminate]]; injection E as <- <- <-; repeat split; auto; discriminate. }
    destruct E4 as (-> & -> & -> & Hh). clear E.
    destruct (put_inv m n s (bm_set n g1 s) I E1) as (J1 & J2).
    - rewrite bm_set_keys. pose proof (mi_nd _ I _ _ E1). destruct (bm_find n s) eqn:F; auto. constructor; auto. now apply bm_find_none.
    - intros k. rewrite bm_set_keys. destruct (bm_find n s); simpl; intuition.
    - intros k Hk. rewrite bm_set_find. destruct (name_eqb_spec n k); congruence.
    - split; auto. exists g, recs, g1. split; [rewrite E3; destruct (bm_find n s); congruence|].
      split; [cbn [g_call]; rewrite P; reflexivity|]. split; [reflexivity|]. split; [intros Hf; rewrite (Hh Hf); auto|].
      rewrite bm_set_find, name_eqb_refl in J2. exact J2.
  Qed.
  Lemma pushes_sim h : forall ps m b l m1, MInv m -> ma_multi_push ne hash ps h m = Ok (b, l, m1) ->
    MInv m1 /\ b = true /\ single_pushes ne (ma_agg o) h ps (ma_get m) l (ma_get m1).
  Proof.
    induction ps as [|[e [n d]] ps IH]; intros m b l m1 I E; cbn [ma_multi_push] in E.
    - injection E as <- <- <-. split; auto. split; auto. constructor. auto.
    - destruct (ma_push _ _ _ _ _ _ _) as [[[r l1] m2]| |] eqn:P; try discriminate. cbn [bind] in E.
      destruct (ma_multi_push _ _ _ _ _) as [[[r2 l2] m3]| |] eqn:Q; try discriminate. injection E as <- <- <-.
      destruct (push_sim _ _ _ _ _ _ _ _ I P) as (I2 & S1). destruct (IH _ _ _ _ I2 Q) as (I3 & -> & S2).
      split; auto. split; auto. econstructor; eauto.
  Qed.
  Lemma mdel_sim m n b m1 : MInv m -> ma_del hash n m = Ok (b, m1) ->
    MInv m1 /\ (b = true <-> ma_get m n <> None) /\ update (ma_get m) n None (ma_get m1).
  Proof.
    intros I E. unfold ma_del in E. rewrite (pos_ok m n I) in E. cbn [bind] in E.
    destruct (shard_ok m n I) as (s & E1 & E2 & E3). rewrite E2 in E. cbn [bind] in E. unfold bm_del in E.
    destruct (bm_find n s) as [g|] eqn:F; injection E as <- <-.
    - destruct (put_inv m n s (m_erase name_eqb n s) I E1) as (J1 & J2).
      + apply erase_nodup, (mi_nd _ I _ _ E1).
      + intros k H. right. eapply erase_keys; eauto.
      + intros k Hk. unfold bm_find. rewrite m_find_erase by apply name_eqb_spec. destruct (name_eqb_spec n k); congruence.
      + split; auto. split; [rewrite E3; split; [discriminate|auto]|].
        unfold bm_find in J2. rewrite m_find_erase, name_eqb_refl in J2 by apply name_eqb_spec. exact J2.
    - destruct (put_inv m n s s I E1) as (J1 & J2); auto. { apply (mi_nd _ I _ _ E1). }
      split; auto. split; [rewrite E3; split; [discriminate|tauto]|]. now rewrite F in J2.
  Qed.

  (** All shards: a list of maps with disjoint keys, as one map. *)
  Lemma shards_spec force h ord : (forall l, Permutation (ord l) l) -> forall bs l bs1,
    (forall i b, nth_error bs i = Some b -> NoDup (keys b)) ->
    NoDup (flat_map keys bs) ->
    ma_shards ne force h ord bs = Ok (l, bs1) ->
    length bs1 = length bs /\ NoDup (map fst l) /\ (h = false -> l = []) /\
    (forall n a, In (n, a) l <-> exists i b g g', nth_error bs i = Some b /\ bm_find n b = Some g /\ pop1 ne force g = Ok (Some a, g')) /\
    (forall i b, nth_error bs i = Some b -> exists b1, nth_error bs1 i = Some b1 /\ keys b1 = keys b /\
      forall n, match bm_find n b with
                | None => bm_find n b1 = None
                | Some g => exists a g', pop1 ne force g = Ok (a, g') /\ bm_find n b1 = Some g' end).
  Proof.
    intros O. induction bs as [|b bs IH]; intros l bs1 NB ND E; cbn [ma_shards] in E.
    - injection E as <- <-. simpl. repeat split; auto; try constructor; try tauto.
      + intros (i & b & g & g' & H & _). destruct i; discriminate.
      + intros i b H. destruct i; discriminate.
    - destruct (bm_pushout _ _ _ _ _) as [[l1 b1]| |] eqn:E1; try discriminate. cbn [bind] in E.
      destruct (ma_shards _ _ _ _ _) as [[l2 t1]| |] eqn:E2; try discriminate. injection E as <- <-.
      cbn [flat_map] in ND. destruct (pushout_spec ne force h ord b l1 b1 O (NB 0%nat b eq_refl) E1) as (A1 & A2 & A3 & A4 & A5).
      destruct (IH l2 t1) as (B1 & B2 & B3 & B4 & B5); auto.
      { intros i x H. apply (NB (S i)). exact H. }
      { clear - ND. induction (keys b); simpl in ND; auto. inversion ND; auto. }
      split; [simpl; congruence|]. split; [|split; [|split]].
      + rewrite map_app. assert (D : forall n, In n (map fst l1) -> In n (map fst l2) -> False).
        { intros n I1 I2. apply in_map_iff in I1, I2. destruct I1 as ([n1 a1] & X1 & I1), I2 as ([n2 a2] & X2 & I2). simpl in X1, X2. subst n1 n2.
          apply A4 in I1. apply B4 in I2. destruct I1 as (g & _ & F & _), I2 as (i & x & g2 & _ & Hi & F2 & _).
          assert (K1 : In n (keys b)).
          { destruct (in_dec (list_eq_dec ascii_dec) n (keys b)) as [|Y]; auto. apply bm_find_none in Y. congruence. }
          assert (K2 : In n (flat_map keys bs)).
          { apply in_flat_map. exists x. split; [eapply nth_error_In; eauto|].
            destruct (in_dec (list_eq_dec ascii_dec) n (keys x)) as [|Y]; auto. apply bm_find_none in Y. congruence. }
          clear - ND K1 K2. induction (keys b) as [|k ks IHk]; [destruct K1|]. simpl in ND. inversion ND; subst.
          destruct K1 as [->|K1]; auto. apply H1, in_app_iff. auto. }
        clear - A2 B2 D. induction (map fst l1) as [|x t IHt]; simpl; auto. inversion A2; subst. constructor.
        * rewrite in_app_iff. intros [Y|Y]; auto. apply (D x); simpl; auto.
        * apply IHt; auto. intros n H. apply D. right. auto.
      + intros Hf. rewrite (A3 Hf), (B3 Hf). auto.
      + intros n a. rewrite in_app_iff, A4, B4. split.
        * intros [(g & g' & F & Q)|(i & x & g & g' & H & F & Q)]; [exists 0%nat, b, g, g'; auto|exists (S i), x, g, g'; auto].
        * intros (i & x & g & g' & H & F & Q). destruct i; simpl in H; [injection H as <-; eauto|right; eauto 8].
      + intros i x H. destruct i; simpl in H; [injection H as <-; exists b1; auto|]. apply B5 in H. exact H.
  Qed.
  Lemma flat_nodup m : MInv m -> NoDup (flat_map keys (mu_list m)).
  Proof.
    intros I. pose proof (mi_nd _ I) as N. pose proof (mi_key _ I) as K.
    assert (G : forall bs j, (forall i b, nth_error bs i = Some b -> NoDup (keys b)) ->
      (forall i b k, nth_error bs i = Some b -> In k (keys b) -> shard_of k = (j + i)%nat) -> NoDup (flat_map keys bs)).
    { clear. induction bs as [|b bs IH]; intros j N K; simpl; [constructor|].
      assert (R : NoDup (flat_map keys bs)).
      { apply (IH (S j)); [intros i x H; apply (N (S i) x H)|]. intros i x k H Hk. rewrite (K (S i) x k H Hk). lia. }
      assert (D : forall k, In k (keys b) -> ~ In k (flat_map keys bs)).
      { intros k H1 H2. apply in_flat_map in H2. destruct H2 as (x & H2 & H3). apply In_nth_error in H2. destruct H2 as (i & H2).
        pose proof (K 0%nat b k eq_refl H1). pose proof (K (S i) x k H2 H3). lia. }
      pose proof (N 0%nat b eq_refl) as Nb. clear - R D Nb. induction (keys b) as [|k ks IHk]; simpl; auto. inversion Nb; subst.
      constructor; [rewrite in_app_iff; intros [H|H]; auto; apply (D k); simpl; auto|]. apply IHk; auto. intros x Hx. apply D. right. auto. }
    apply (G _ 0%nat); auto.
  Qed.
  Lemma get_shard m n i b g : MInv m -> nth_error (mu_list m) i = Some b -> bm_find n b = Some g -> i = shard_of n.
  Proof.
    intros I E F. symmetry. apply (mi_key _ I i b); auto.
    destruct (in_dec (list_eq_dec ascii_dec) n (keys b)) as [|Y]; auto. apply bm_find_none in Y. congruence.
  Qed.
  Lemma mpushout_sim m force h ord l m1 : MInv m -> (forall l, Permutation (ord l) l) -> ma_pushout ne force h ord m = Ok (l, m1) ->
    MInv m1 /\ single ne (ma_agg o) (MPushout force h ord) (ma_get m) (MRecs l) (ma_get m1).
  Proof.
    intros I O E. unfold ma_pushout in E. destruct (ma_shards _ _ _ _ _) as [[l1 bs]| |] eqn:S; try discriminate. injection E as <- <-.
    destruct (shards_spec force h ord O _ _ _ (mi_nd _ I) (flat_nodup m I) S) as (A1 & A2 & A3 & A4 & A5).
    assert (B : forall i b1, nth_error bs i = Some b1 -> exists b, nth_error (mu_list m) i = Some b /\ keys b1 = keys b).
    { intros i b1 H. destruct (nth_error (mu_list m) i) as [b|] eqn:X.
      - destruct (A5 i b X) as (b2 & Y1 & Y2 & _). exists b. split; auto. congruence.
      - apply nth_error_None in X. apply nth_error_lt in H. lia. }
    split; [|split; auto; split; auto; split].
    - destruct I. constructor; simpl; auto; [congruence| |].
      + intros i b1 H. destruct (B i b1 H) as (b & X & ->). eauto.
      + intros i b1 k H. destruct (B i b1 H) as (b & X & ->). eauto.
    - intros n a. rewrite A4. split.
      + intros (i & b & g & g' & H & F & P). exists g, g'. assert (i = shard_of n) by (eapply get_shard; eauto). subst i.
        split; [unfold SpecMulti.ma_get; now rewrite H|]. rewrite pop1_call, P. reflexivity.
      + intros (g & g' & F & P). unfold SpecMulti.ma_get in F. destruct (nth_error _ _) as [b|] eqn:H; try discriminate.
        rewrite pop1_call in P. destruct (pop1 ne force g) as [[a' g1]| |] eqn:P1; try discriminate. injection P as -> ->.
        exists (shard_of n), b, g, g'. auto.
    - intros n. destruct (shard_ok m n I) as (b & E1 & _ & E3). rewrite E3. destruct (A5 _ _ E1) as (b1 & E4 & _ & E5). specialize (E5 n).
      unfold SpecMulti.ma_get. simpl. rewrite E4. destruct (bm_find n b) as [g|]; auto. destruct E5 as (a & g' & P & F). exists a, g'. split; auto.
      rewrite pop1_call, P. reflexivity.
  Qed.
  Lemma size_sim m : MInv m -> single ne (ma_agg o) MSize (ma_get m) (MSizes (ma_size m) (ma_data_size m)) (ma_get m).
  Proof.
    intros I. split; auto. exists (concat (mu_list m)). split; [|split; [|split]].
    - rewrite concat_map, <- flat_map_concat_map. exact (flat_nodup m I).
    - intros n g. rewrite in_concat. split.
      + intros (b & H & H2). apply In_nth_error in H. destruct H as (i & H). apply (bm_find_in n g b (mi_nd _ I i b H)) in H2.
        assert (i = shard_of n) by (eapply get_shard; eauto). subst i. unfold SpecMulti.ma_get. now rewrite (H : @nth_error bmulti (mu_list m) (shard_of n) = Some b).
      + unfold SpecMulti.ma_get. destruct (nth_error _ _) as [b|] eqn:H; [|discriminate]. intros F. exists b. split; [eapply nth_error_In; eauto|].
        apply bm_find_in; auto. apply (mi_nd _ I _ _ H).
    - unfold ma_size. induction (mu_list m); simpl; auto. rewrite app_length, IHl. reflexivity.
    - unfold ma_data_size. induction (mu_list m); simpl; auto. rewrite map_app, list_sum_app, IHl. reflexivity.
  Qed.
  Lemma ma_do_sim m op out m1 : MInv m -> order_ok op -> ma_do ne hash op m = Ok (out, m1) ->
    MInv m1 /\ single ne (ma_agg o) op (ma_get m) out (ma_get m1).
  Proof.
    intros I O E. destruct op; cbn [ma_do] in E.
    - destruct (ma_push _ _ _ _ _ _ _) as [[[b l] m2]| |] eqn:P; try discriminate. injection E as <- <-. eapply push_sim; eauto.
    - destruct (ma_multi_push _ _ _ _ _) as [[[b l] m2]| |] eqn:P; try discriminate. injection E as <- <-.
      destruct (pushes_sim _ _ _ _ _ _ I P) as (A & B & C). split; auto. split; auto.
    - destruct (ma_del _ _ _) as [[b m2]| |] eqn:P; try discriminate. injection E as <- <-.
      destruct (mdel_sim _ _ _ _ I P) as (A & B & C). split; auto. split; auto.
    - destruct (ma_pushout _ _ _ _ _) as [[l m2]| |] eqn:P; try discriminate. injection E as <- <-. eapply mpushout_sim; eauto.
    - injection E as <- <-. split; auto. now apply size_sim.
  Qed.
  Lemma ma_run_sim : forall ops m outs m1, MInv m -> Forall order_ok ops -> ma_run ne hash m ops = Ok (outs, m1) ->
    MInv m1 /\ single_run ne (ma_agg o) (ma_get m) ops outs (ma_get m1).
  Proof.
    induction ops as [|op ops IH]; intros m outs m1 I O E; cbn [ma_run] in E.
    - injection E as <- <-. split; auto. constructor. auto.
    - destruct (ma_do _ _ _ _) as [[out m2]| |] eqn:D; try discriminate. cbn [bind] in E.
      destruct (ma_run _ _ _ _) as [[outs2 m3]| |] eqn:R; try discriminate. injection E as <- <-. inversion O; subst.
      destruct (ma_do_sim _ _ _ _ I H1 D) as (I2 & S). destruct (IH _ _ _ I2 H2 R) as (I3 & S2). split; auto. econstructor; eauto.
  Qed.
  Lemma single_map ops outs m1 : (0 < ma_hash o)%nat -> Forall order_ok ops -> ma_run ne hash (ma_new o) ops = Ok (outs, m1) ->
    single_run ne (ma_agg o) (fun _ => None) ops outs (ma_get m1).
  Proof.
    intros H O E. destruct (ma_run_sim ops _ _ _ (MInv_new H) O E) as (_ & S).
    assert (G : forall f f' ops outs f1, (forall n, f n = f' n) -> single_run ne (ma_agg o) f ops outs f1 -> single_run ne (ma_agg o) f' ops outs f1).
    { clear. intros f f' ops outs f1 X R. revert f' X. induction R as [f f1 Y|op t f out f1 outs f2 S R IH]; intros f' X.
      - constructor. intros n. rewrite Y. auto.
      - apply sr_cons with f1; auto. clear - X S.
        assert (U : forall n x g, update f n x g -> update f' n x g) by (intros n x g [A B]; split; auto; intros m Hm; rewrite B; auto).
        destruct op, out; simpl in *; auto.
        + unfold single_push in *. destruct S as (g & recs & g1 & A & B). rewrite X in A. exists g, recs, g1. intuition.
        + destruct S as (-> & S). split; auto. inversion S; subst.
          * constructor. intros n. rewrite H. auto.
          * match goal with H : single_push _ _ _ _ _ _ _ ?b _ _ |- _ => eapply sp_cons with (b := b); [|eassumption];
              destruct H as (g & recs & g1 & A & B) end.
            rewrite X in A. exists g, recs, g1. intuition.
        + rewrite <- X. intuition.
        + destruct S as (A & B & C & D). split; auto. split; auto. split; [intros n a; rewrite <- X; auto|]. intros n. rewrite <- X. apply D.
        + destruct S as ((l & A & B & C) & D). split; [exists l; split; auto; split; auto; intros n g; rewrite <- X; auto|intros n; rewrite <- X; auto]. }
    eapply G; [|exact S]. intros n. apply get_new.
  Qed.
End Hash.
