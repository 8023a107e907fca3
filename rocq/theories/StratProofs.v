(** Closed form of the thinning in sorting mode, and its order-statistic consequence. *)
From Coq Require Import ZArith List Bool Permutation Lia Arith Sorted.
From Verif Require Import Base SortFacts ModelTypes ModelAvg ModelReducer SpecReducer ListFacts LoopProofs ReducerProofs.
Import ListNotations.

Section S.
  Variable ne : nat -> list Z -> list Z.
  Hypothesis Hne : nth_element_ok ne.

  Lemma supplier_row0 n m q : 2 <= n -> n * q <= m -> supplier n m (n * q) = 0.
  Proof.
    intros Hn Hq. unfold supplier. replace ((n * q + 1) / n) with q.
    - rewrite (proj2 (Nat.ltb_ge m (n * q))) by lia. rewrite Nat.mul_comm. apply Nat.mod_mul. lia.
    - symmetry. replace (n * q + 1) with (1 + q * n) by lia. rewrite Nat.div_add by lia.
      rewrite Nat.div_small by lia. lia.
  Qed.

  Lemma supplier_rowl n m q l : 1 <= l < n -> n * q <= m -> (l = n - 1 -> n * q + l < m) ->
    supplier n m (n * q + l) = l.
  Proof.
    intros Hl Hq Hm. unfold supplier.
    assert (D : (n * q + l + 1) / n = q + (if l =? n - 1 then 1 else 0)).
    { replace (n * q + l + 1) with ((l + 1) + q * n) by lia. rewrite Nat.div_add by lia.
      destruct (Nat.eqb_spec l (n - 1)).
      - replace (l + 1) with n by lia. rewrite Nat.div_same by lia. lia.
      - rewrite Nat.div_small by lia. lia. }
    rewrite D. destruct (Nat.eqb_spec l (n - 1)).
    - rewrite (proj2 (Nat.ltb_ge m (n * (q + 1)))) by (specialize (Hm e); nia).
      replace (n * q + l) with (l + q * n) by lia. rewrite Nat.mod_add by lia. now apply Nat.mod_small.
    - rewrite (proj2 (Nat.ltb_ge m (n * (q + 0)))) by nia.
      replace (n * q + l) with (l + q * n) by lia. rewrite Nat.mod_add by lia. now apply Nat.mod_small.
  Qed.

  Lemma supplier_stuck n m q j : 2 <= n -> m <= n * q + (n - 1) -> n * q + (n - 1) <= j -> supplier n m j = 0.
  Proof.
    intros Hn Hm Hj. unfold supplier.
    assert (D : q + 1 <= (j + 1) / n) by (apply Nat.div_le_lower_bound; nia).
    rewrite (proj2 (Nat.ltb_lt m (n * ((j + 1) / n)))); auto. nia.
  Qed.

  Lemma loop_sorted cm n m limit A lst : cm <> Nth -> 
    n = S (S (length A)) -> Forall (fun v => length v = limit) A -> length lst = m -> 1 <= m <= limit ->
    forall todo i l q v0, i + todo = limit -> length v0 = limit -> n * q <= m ->
    ((l = n /\ i = n * q) \/ (1 <= l < n /\ i = n * q + l)) ->
    exists v0', reduce_loop ne cm n todo i l (v0 :: A ++ [lst]) = Ok (v0' :: A ++ [lst]) /\
      length v0' = limit /\
      forall j, j < limit -> nth_error v0' j =
        if j <? i then nth_error v0 j
        else nth_error (nth (supplier n m j) (v0 :: A ++ [lst]) []) j.
  Proof.
    intros Hcm Hn HA Hm Hml. induction todo as [|todo IH]; intros i l q v0 Hi H0 Hq Hs.
    { simpl. exists v0. repeat split; auto. intros j Hj. rewrite (proj2 (Nat.ltb_lt j i)) by lia. auto. }
    assert (Ecm : rmode_eqb cm Nth = false) by (destruct cm; auto; congruence).
    simpl. destruct (Nat.eqb_spec l n) as [El|Nl].
    - destruct Hs as [(_ & ->)|(? & _)]; [|lia]. rewrite Ecm. cbn [bind].
      destruct (IH (S (n * q)) 1 q v0) as (v0' & E & L & HS); auto; try lia.
      exists v0'. split; [exact E|]. split; auto. intros j Hj. rewrite HS by auto.
      destruct (Nat.ltb_spec j (S (n * q))); destruct (Nat.ltb_spec j (n * q)); auto; try lia.
      assert (j = n * q) by lia. subst j. rewrite supplier_row0 by lia. reflexivity.
    - destruct Hs as [(? & _)|(Hl & ->)]; [lia|].
      assert (STEP : forall v C B, A ++ [lst] = B ++ v :: C -> length B = l - 1 -> n * q + l < length v ->
                     (l = n - 1 -> n * q + l < m) ->
        exists v0', (d1 <- put_nth ne cm l (n * q + l) (v0 :: A ++ [lst]) ;;
                     reduce_loop ne cm n todo (S (n * q + l)) (S l) d1) = Ok (v0' :: A ++ [lst]) /\
          length v0' = limit /\
          forall j, j < limit -> nth_error v0' j =
            if j <? n * q + l then nth_error v0 j
            else nth_error (nth (supplier n m j) (v0 :: A ++ [lst]) []) j).
      { intros v C B EB HB Hv Hlast.
        destruct (put_nth_spec ne Hne cm v0 B v C l (n * q + l) (n * q)) as (v' & x & E & L' & Ex & _ & _ & N'); auto; try lia.
        rewrite (N' Hcm) in *. rewrite <- EB in E. rewrite E. cbn [bind].
        destruct (IH (S (n * q + l)) (S l) (if (S l =? n) then S q else q) (set_nth (n * q + l) x v0))
          as (v0' & E' & L2 & S2); auto; try lia.
        - now rewrite set_nth_length.
        - destruct (Nat.eqb_spec (S l) n); [|lia]. specialize (Hlast ltac:(lia)). nia.
        - destruct (Nat.eqb_spec (S l) n); [left|right]; split; try lia; nia.
        - exists v0'. split; [exact E'|]. split; auto. intros j Hj. rewrite S2 by auto.
          destruct (Nat.ltb_spec j (S (n * q + l))); destruct (Nat.ltb_spec j (n * q + l)); auto; try lia.
          + apply nth_error_set_nth_neq. lia.
          + assert (j = n * q + l) by lia. subst j. rewrite nth_error_set_nth_eq by lia.
            rewrite supplier_rowl by (auto; lia).
            replace l with (S (l - 1)) at 1 by lia. cbn [nth]. rewrite EB, <- HB, nth_middle. auto.
          + destruct (supplier n m j) eqn:Es; cbn [nth]; auto.
            apply nth_error_set_nth_neq. lia. }
      destruct (Nat.eqb_spec l (n - 1)) as [El|Nl'].
      + rewrite row_mid by lia. cbn [bind].
        destruct (Nat.ltb_spec (n * q + l) (length lst)) as [Hv|Hv].
        * apply (STEP lst [] A); auto; lia.
        * replace (reduce_loop ne cm n todo (S (n * q + l)) l) with (reduce_loop ne cm n todo (S (n * q + l)) (n - 1))
            by (now rewrite El).
          rewrite (stuck_loop ne cm m n); auto; try lia.
          exists v0. repeat split; auto. intros j Hj.
          destruct (Nat.ltb_spec j (n * q + l)); auto.
          rewrite (supplier_stuck n m q) by lia. reflexivity.
      + assert (HB : exists B v C, A = B ++ v :: C /\ length B = l - 1).
        { destruct (nth_error A (l - 1)) as [v|] eqn:E.
          - apply nth_error_split in E as (B & C & -> & HB). eauto.
          - apply nth_error_None in E. lia. }
        destruct HB as (B & v & C & EA & HB).
        apply (STEP v (C ++ [lst]) B); auto; try lia.
        * rewrite EA, <- app_assoc. reflexivity.
        * rewrite EA in HA. apply Forall_app in HA as [_ HA]. apply Forall_inv in HA. lia.
  Qed.

  (** Rows in sorting mode: earlier rows sorted, the last one as it arrived. *)
  Definition rows_of (cs : list (list Z)) : list (list Z) :=
    match rev cs with
    | [] => []
    | lst :: ini => map isort (rev ini) ++ [lst]
    end.

  Lemma rows_of_snoc init lst : rows_of (init ++ [lst]) = map isort init ++ [lst].
  Proof. unfold rows_of. rewrite rev_app_distr. simpl. now rewrite rev_involutive. Qed.

  Definition SInv (o : ropts) (vs : list Z) (r : reducer) : Prop :=
    r_cur r = Sorting /\ r_opt r = ctor_opt o /\
    exists cs, shape (o_limit o) (o_levels o) cs /\
      concat cs = firstn (o_limit o * o_levels o) vs /\ r_data r = rows_of cs.

  Lemma shape_full_length limit levels cs : shape limit levels cs -> length (concat cs) <= limit * levels.
  Proof.
    intros HS. rewrite (shape_length _ _ _ HS).
    destruct HS as [->|(init & lst & -> & Hi & Hl & Hn)]; [simpl; lia|].
    rewrite back_app, app_length in *. simpl in *. nia.
  Qed.

  Lemma firstn_eq_all {A} k (l vs : list A) : l = firstn k vs -> length l < k -> l = vs.
  Proof.
    intros E H. destruct (le_lt_dec (length vs) k).
    - rewrite firstn_all2 in E; auto.
    - rewrite E, firstn_length in H. lia.
  Qed.

  Lemma SInv_add1 o vs r v : SInv o vs r -> SInv o (vs ++ [v]) (r_add1 v r).
  Proof.
    intros (Hc & Ho & cs & HS & E & D). unfold SInv, r_add1. cbv zeta.
    rewrite Ho, ctor_opt_limit, ctor_opt_levels.
    destruct (match r_data r with [] => true | _ => false end || (length (back (r_data r)) =? o_limit o)) eqn:E1.
    - destruct ((length (r_data r) =? o_levels o) || (o_limit o =? 0)) eqn:E2; simpl.
      + repeat split; auto. exists cs. repeat split; auto. rewrite E.
        assert (F : length (firstn (o_limit o * o_levels o) vs) = o_limit o * o_levels o).
        { rewrite <- E. apply orb_true_iff in E2. rewrite !Nat.eqb_eq in E2.
          destruct HS as [->|(init & lst & -> & Hi & Hl & Hn)].
          - rewrite D in E2. simpl in *. destruct E2 as [E2|E2]; [rewrite <- E2|rewrite E2]; lia.
          - destruct E2 as [E2|E2]; [|lia].
            rewrite D, rows_of_snoc in E1, E2. rewrite app_length, map_length in E2. simpl in E2.
            apply orb_true_iff in E1. destruct E1 as [E1|E1].
            + destruct (map isort init); discriminate.
            + apply Nat.eqb_eq in E1. rewrite back_app in E1.
              rewrite concat_snoc, app_length, (concat_length_const _ (o_limit o)) by auto. nia. }
        rewrite firstn_length in F. rewrite firstn_app.
        replace (o_limit o * o_levels o - length vs) with 0 by lia. simpl. now rewrite app_nil_r.
      + apply orb_false_iff in E2 as [E2 E3]. apply Nat.eqb_neq in E2, E3.
        repeat split; auto. exists (cs ++ [[v]]).
        assert (LL : length (r_data r) = length cs).
        { rewrite D. destruct (list_snoc cs) as [->|(a & x & ->)]; auto.
          rewrite rows_of_snoc, !app_length, map_length. reflexivity. }
        assert (F : Forall (fun v => length v = o_limit o) cs /\ length cs < o_levels o).
        { destruct HS as [->|(init & lst & -> & Hi & Hl & Hn)]; [simpl; split; [constructor|simpl in *; lia]|].
          split; [|lia]. apply Forall_app; split; auto. constructor; auto.
          rewrite D, rows_of_snoc in E1. apply orb_true_iff in E1. destruct E1 as [E1|E1].
          - destruct (map isort init); discriminate.
          - apply Nat.eqb_eq in E1. now rewrite back_app in E1. }
        destruct F as [F1 F2]. repeat split.
        * right. exists cs, [v]. rewrite app_length. simpl. repeat split; auto; lia.
        * rewrite concat_snoc.
          assert (HL : length (concat cs) < o_limit o * o_levels o).
          { rewrite (concat_length_const _ (o_limit o)) by auto. nia. }
          assert (EV := firstn_eq_all _ _ _ E HL). rewrite EV.
          rewrite firstn_all2; auto. rewrite app_length, <- EV. simpl. lia.
        * rewrite rows_of_snoc, Hc, D. simpl.
          destruct (list_snoc cs) as [->|(a & x & ->)]; [reflexivity|].
          rewrite rows_of_snoc. rewrite map_app. simpl.
          destruct (map isort a ++ [x]) eqn:Ex; [destruct (map isort a); discriminate|]. rewrite <- Ex.
          simpl. now rewrite upd_last_app.
    - simpl. apply orb_false_iff in E1 as [E0 E1]. apply Nat.eqb_neq in E1. repeat split; auto.
      destruct HS as [->|(init & lst & -> & Hi & Hl & Hn)]; [rewrite D in E0; discriminate|].
      rewrite D, rows_of_snoc in *. rewrite back_app in E1. rewrite upd_last_app.
      exists (init ++ [lst ++ [v]]). repeat split.
      + right. exists init, (lst ++ [v]). rewrite !app_length in *. simpl in *. repeat split; auto; lia.
      + assert (HL : length (concat (init ++ [lst])) < o_limit o * o_levels o).
        { rewrite concat_snoc, app_length, (concat_length_const _ (o_limit o)) by auto.
          rewrite app_length in Hn. simpl in Hn. nia. }
        assert (EV := firstn_eq_all _ _ _ E HL). rewrite <- EV.
        rewrite firstn_all2; rewrite !concat_snoc; [now rewrite app_assoc|].
        rewrite concat_snoc in HL. rewrite app_length. simpl. lia.
      + now rewrite rows_of_snoc.
  Qed.

  Lemma SInv_add_all o us : forall vs r, SInv o vs r -> SInv o (vs ++ us) (r_add_all us r).
  Proof.
    induction us as [|u us IH]; intros vs r HS; simpl; [now rewrite app_nil_r|].
    apply (SInv_add1 o vs r u) in HS. apply IH in HS. now rewrite <- app_assoc in HS.
  Qed.

  Lemma SInv_ext o vs r r' : r_cur r' = r_cur r -> r_opt r' = r_opt r -> r_data r' = r_data r ->
    SInv o vs r -> SInv o vs r'.
  Proof. intros E1 E2 E3 (A & B & cs & C). unfold SInv. rewrite E1, E2, E3. eauto. Qed.

  Lemma SInv_empty o r : r_cur r = Sorting -> r_opt r = ctor_opt o -> r_data r = [] -> SInv o [] r.
  Proof.
    intros. repeat split; auto. exists []. repeat split; auto; [now left|]. now rewrite firstn_nil.
  Qed.

  Lemma ctor_cur_sorting o : o_mode (ctor_opt o) = Sorting -> ctor_cur o = Sorting.
  Proof.
    unfold ctor_opt, ctor_cur. destruct (o_mode o) eqn:Em; rewrite ?Em; auto; try congruence.
    destruct (_ || _); simpl; auto. congruence.
  Qed.

  Lemma SInv_fresh o w r : o_mode (ctor_opt o) = Sorting -> WInv o w r -> r_data r = [] -> SInv o [] r.
  Proof.
    intros Hm W Hd. destruct W as [I _ _ _]. apply SInv_empty; auto; [|exact (inv_opt _ _ _ _ I)].
    rewrite (inv_cur _ _ _ _ I), ctor_cur_sorting; auto. congruence.
  Qed.

  Lemma SInv_step o w r op r' : o_mode (ctor_opt o) = Sorting -> op <> OpReduce -> WInv o w r ->
    SInv o (values w) r -> r_step ne r op = Ok r' -> SInv o (values (window_step w op)) r'.
  Proof.
    intros Hm Hop W HS E. destruct op; simpl in E; try congruence.
    - injection E as <-. simpl. rewrite values_app. unfold values at 2. simpl.
      eapply SInv_ext; [| | |apply SInv_add1; exact HS]; reflexivity.
    - injection E as <-. simpl. rewrite values_app. unfold values at 2. simpl. rewrite app_nil_r.
      eapply SInv_ext; [| | |apply SInv_add_all; exact HS]; reflexivity.
    - injection E as <-. simpl. rewrite values_app. unfold values at 2. simpl. rewrite app_nil_r.
      eapply SInv_ext; [| | |apply SInv_add_all; exact HS]; reflexivity.
    - injection E as <-. simpl. rewrite values_app. unfold values at 2. simpl. rewrite app_nil_r.
      eapply SInv_ext; [| | |apply SInv_add_all; exact HS]; reflexivity.
    - injection E as <-. simpl. rewrite values_app. unfold values at 2. simpl. rewrite app_nil_r.
      eapply SInv_ext; [| | |apply SInv_add_all; exact HS]; unfold r_add_red;
        destruct (negb _), (negb _); reflexivity.
    - destruct (r_get_reduced ne r); simpl in E; try discriminate. injection E as <-; auto.
    - injection E as <-. eapply SInv_fresh; eauto using WInv_clear.
    - pose proof (detach_spec ne Hne o w r W) as D.
      destruct (f64_to_i64 (fst (avg_of (values w)))) eqn:Ez.
      + destruct D as (a' & r1 & Ed & W1 & Er & _). rewrite Ed in E. simpl in E. injection E as <-.
        eapply SInv_fresh; eauto.
      + destruct w as [|op w]; [discriminate Ez|]. rewrite D in E by discriminate. discriminate.
      + contradiction.
  Qed.

  Lemma SInv_run_gen o ops : o_mode (ctor_opt o) = Sorting -> forall w r r', WInv o w r -> SInv o (values w) r ->
    Forall op_typed ops -> ~ In OpReduce ops ->
    r_run ne r ops = Ok r' -> SInv o (values (fold_left window_step ops w)) r'.
  Proof.
    intros Hm. induction ops as [|op ops IH]; intros w r r' W HS HT HI E; simpl in *.
    - injection E as <-. auto.
    - destruct (r_step ne r op) as [r1| |] eqn:E1; simpl in E; try discriminate.
      eapply IH; [| |exact (Forall_inv_tail HT)| |eauto].
      + eapply step_inv; eauto. exact (Forall_inv HT).
      + eapply SInv_step; eauto.
      + auto.
  Qed.

  Lemma SInv_run o ops r : o_mode (ctor_opt o) = Sorting -> Forall op_typed ops -> ~ In OpReduce ops ->
    r_run ne (reducer_new o) ops = Ok r -> SInv o (values (window ops)) r.
  Proof.
    intros. unfold window. eapply SInv_run_gen; eauto using WInv_new.
    eapply SInv_fresh; eauto using WInv_new.
  Qed.

  (** Chunks are blocks. *)
  Lemma chunk_prefix limit init c rest tail : Forall (fun v => length v = limit) init ->
    length c <= limit -> (length c < limit -> rest = [] /\ tail = []) ->
    block limit (concat (init ++ c :: rest) ++ tail) (length init) = c.
  Proof.
    intros Hi Hc Hr. unfold block. rewrite concat_app. simpl.
    rewrite <- app_assoc, skipn_app.
    rewrite skipn_all2 by (rewrite (concat_length_const _ limit) by auto; lia).
    rewrite (concat_length_const _ limit) by auto.
    replace (length init * limit - length init * limit) with 0 by lia. simpl.
    rewrite <- app_assoc, firstn_app.
    destruct (Nat.eq_dec (length c) limit) as [E|N].
    - rewrite E, Nat.sub_diag. simpl. rewrite app_nil_r. rewrite <- E. apply firstn_all.
    - destruct (Hr ltac:(lia)) as [-> ->]. simpl. rewrite firstn_nil, app_nil_r. apply firstn_all2. lia.
  Qed.

  Lemma shape_blocks limit levels cs vs : shape limit levels cs ->
    concat cs = firstn (limit * levels) vs ->
    length cs = used_levels limit levels vs /\
    forall j, j < length cs -> nth j cs [] = block limit vs j.
  Proof.
    intros HS E. destruct HS as [->|(init & lst & -> & Hi & Hl & Hn)].
    { split; [|simpl; lia]. simpl in *. unfold used_levels.
      destruct limit; [rewrite Nat.min_0_r; auto|]. destruct levels; auto. destruct vs; [|simpl in E; discriminate].
      rewrite Nat.div_small by (cbn [length]; lia). now rewrite Nat.min_0_r. }
    assert (EV : exists tail, vs = concat (init ++ [lst]) ++ tail /\ (length lst < limit -> tail = [])).
    { exists (skipn (limit * levels) vs). split; [rewrite E; symmetry; apply firstn_skipn|].
      intros H. assert (length (concat (init ++ [lst])) < limit * levels).
      { rewrite concat_snoc, app_length, (concat_length_const _ limit) by auto.
        rewrite app_length in Hn; simpl in Hn. nia. }
      rewrite (firstn_eq_all _ _ _ E H0) in H0. apply skipn_all2. lia. }
    destruct EV as (tail & EV & Ht). split.
    - unfold used_levels. rewrite app_length in *. simpl in *.
      destruct (Nat.eq_dec (length init + 1) levels) as [El|Nl].
      + rewrite Nat.min_l; auto. rewrite <- El. apply Nat.div_le_lower_bound; [lia|].
        rewrite EV, app_length, concat_snoc, app_length, (concat_length_const _ limit) by auto. nia.
      + assert (T : tail = []).
        { assert (length (concat (init ++ [lst])) < limit * levels).
          { rewrite concat_snoc, app_length, (concat_length_const _ limit) by auto. nia. }
          rewrite (firstn_eq_all _ _ _ E H) in EV. rewrite <- (app_nil_r vs) in EV at 1. now apply app_inv_head in EV. }
        assert (D : (length vs + limit - 1) / limit = length init + 1); [|lia].
        rewrite EV, T, app_nil_r, concat_snoc, app_length, (concat_length_const _ limit) by auto.
        replace (length init * limit + length lst + limit - 1) with ((length lst - 1) + (length init + 1) * limit) by lia.
        rewrite Nat.div_add by lia. rewrite Nat.div_small by lia. lia.
    - intros j Hj. destruct (Nat.eq_dec j (length init)) as [->|Nj].
      + rewrite nth_middle. rewrite EV. symmetry. apply chunk_prefix; auto; try lia.
      + rewrite app_length in Hj; simpl in Hj. assert (Hj' : j < length init) by lia.
        apply nth_error_Some in Hj'. destruct (nth_error init j) as [c|] eqn:Ec; [clear Hj'|congruence].
        assert (Hc := nth_error_In _ _ Ec). rewrite Forall_forall in Hi. assert (Lc := Hi _ Hc).
        rewrite app_nth1 by lia. erewrite nth_error_nth by eauto.
        apply nth_error_split in Ec as (i1 & i2 & Ei & Li). rewrite EV, Ei, <- app_assoc. simpl. rewrite <- Li.
        symmetry. apply chunk_prefix; try lia.
        apply Forall_forall. intros x Hx. apply Hi. rewrite Ei. apply in_app_iff. auto.
  Qed.

  (** detach in sorting mode. *)
  Lemma detach_sorting o w r a r' : o_mode (ctor_opt o) = Sorting -> WInv o w r -> SInv o (values w) r ->
    r_detach ne r = Ok (Some a, r') ->
    let n := used_levels (o_limit o) (o_levels o) (values w) in
    let m := length (block (o_limit o) (values w) (n - 1)) in
    length (ad_data a) = (if o_levels o =? 0 then O else Nat.min (length (values w)) (o_limit o)) /\
    forall i, i < length (ad_data a) ->
      supplier n m i < n /\
      nth_error (ad_data a) i = nth_error (isort (block (o_limit o) (values w) (supplier n m i))) i.
  Proof.
    intros Hm W HS E n m.
    assert (HL : length (ad_data a) = (if o_levels o =? 0 then O else Nat.min (length (values w)) (o_limit o))).
    { pose proof (detach_spec ne Hne o w r W) as D.
      destruct (f64_to_i64 (fst (avg_of (values w)))) eqn:Ez.
      - destruct D as (a' & r1 & Ed & _ & _ & D). rewrite Ed in E. injection E as -> ->.
        destruct w; [discriminate|]. destruct D as (x & Ex & P & _). injection Ex as <-. apply P.
      - destruct w as [|op w]; [discriminate Ez|]. rewrite D in E by discriminate. discriminate.
      - contradiction. }
    split; auto. intros i Hi.
    destruct HS as (Hc & Ho & cs & HS & EC & ED).
    destruct (shape_blocks _ _ _ _ HS EC) as [Ln Hb]. fold n in Ln.
    unfold r_detach in E. destruct (r_empty r); [discriminate|].
    destruct (r_reduce ne r) as [r1| |] eqn:E1; simpl in E; try discriminate.
    destruct (f64_to_i64 (r_avg r1)); simpl in E; try discriminate. injection E as <- <-. simpl in Hi |- *.
    unfold r_reduce in E1. rewrite Hc, Ho, ctor_opt_limit in E1. simpl rmode_eqb in E1. cbv iota in E1.
    destruct (shape_cases _ _ _ HS) as [->|[(v & -> & Hv & _)|(v0 & A & lst & Ecs & Hv0 & HA & Hl & Hlev)]].
    - rewrite ED in E1. simpl in E1. injection E1 as <-. rewrite ED in Hi. simpl in Hi. lia.
    - rewrite ED in E1. simpl in E1. injection E1 as <-. simpl in Hi |- *.
      simpl in Ln. rewrite <- Ln.
      assert (supplier 1 m i = 0) as -> by (unfold supplier; rewrite Nat.mod_1_r; destruct (_ <? _); auto).
      split; [lia|]. rewrite <- (Hb 0) by (simpl; lia). reflexivity.
    - rewrite ED in E1.
      assert (ER : rows_of cs = isort v0 :: map isort A ++ [lst]).
      { rewrite Ecs. change (v0 :: A ++ [lst]) with ((v0 :: A) ++ [lst]). now rewrite rows_of_snoc. }
      rewrite ER in E1.
      assert (EU : upd_last isort (isort v0 :: map isort A ++ [lst]) = isort v0 :: map isort A ++ [isort lst]).
      { change (isort v0 :: map isort A ++ [lst]) with ((isort v0 :: map isort A) ++ [lst]). now rewrite upd_last_app. }
      rewrite EU in E1.
      assert (Ln' : length (isort v0 :: map isort A ++ [isort lst]) = n).
      { rewrite <- Ln, Ecs. simpl. rewrite !app_length, map_length. reflexivity. }
      assert (N2 : n = Datatypes.S (Datatypes.S (length (map isort A)))).
      { rewrite <- Ln'. simpl. rewrite app_length, map_length. simpl. lia. }
      rewrite Ln' in E1. rewrite (proj2 (Nat.eqb_neq n 1)) in E1 by lia.
      assert (Lm : length (isort lst) = m).
      { rewrite isort_length. unfold m. rewrite <- Hb by lia. rewrite Ecs.
        replace (n - 1) with (Datatypes.S (length A)) by (rewrite N2, map_length; lia).
        cbn [nth]. now rewrite nth_middle. }
      assert (HA' : Forall (fun v => length v = o_limit o) (map isort A)).
      { apply Forall_forall. intros x Hx. apply in_map_iff in Hx as (y & <- & Hy).
        rewrite isort_length. rewrite Forall_forall in HA. auto. }
      rewrite isort_length in Lm.
      destruct (loop_sorted Sorting n m (o_limit o) (map isort A) (isort lst) ltac:(discriminate) N2 HA'
                  ltac:(rewrite isort_length; auto) ltac:(lia) (o_limit o) 0 n 0 (isort v0))
        as (v0' & EL & LV & SV); try lia.
      { now rewrite isort_length. }
      rewrite EL in E1. simpl in E1. injection E1 as <-. simpl in Hi |- *.
      rewrite LV in Hi. rewrite SV by auto. replace (i <? 0) with false by reflexivity. clear SV.
      assert (HSUP : supplier n m i < n).
      { assert (P : 0 < n) by (rewrite N2; apply Nat.lt_0_succ). clearbody n m. clear - P.
        unfold supplier. destruct (_ <? _); [lia|]. apply Nat.mod_upper_bound. lia. }
      split; auto. f_equal. rewrite <- Hb by lia. rewrite Ecs.
      change (isort v0 :: map isort A ++ [isort lst]) with (map isort [v0] ++ map isort A ++ map isort [lst]).
      rewrite <- !map_app. change ([v0] ++ A ++ [lst]) with (v0 :: A ++ [lst]).
      change (@nil Z) with (isort []) at 1. apply map_nth.
  Qed.
End S.

(** * Order statistics *)
Lemma filter_perm_length {A} (f : A -> bool) l m : Permutation l m -> length (filter f l) = length (filter f m).
Proof.
  induction 1; simpl; auto; try congruence.
  - destruct (f x); simpl; auto.
  - destruct (f x), (f y); auto.
Qed.
Lemma filter_length_le {A} (f : A -> bool) l : length (filter f l) <= length l.
Proof. induction l; simpl; auto. destruct (f a); simpl; lia. Qed.
Lemma filter_all {A} (f : A -> bool) l : Forall (fun x => f x = true) l -> length (filter f l) = length l.
Proof. induction 1; simpl; auto. rewrite H. simpl. auto. Qed.
Lemma filter_none {A} (f : A -> bool) l : Forall (fun x => f x = false) l -> length (filter f l) = 0.
Proof. induction 1; simpl; auto. rewrite H. auto. Qed.

Local Open Scope Z_scope.
Lemma rank_low d k x : rank_is d k x -> exists i y, (k <= i)%nat /\ nth_error d i = Some y /\ y <= x.
Proof.
  intros (a & b & P & La & Ha & Hb).
  destruct (Exists_dec (fun y => y <= x) (skipn k d) (fun y => Z_le_dec y x)) as [E|N].
  - apply Exists_exists in E as (y & Hy & L). apply In_nth_error in Hy as [j Hj].
    exists (k + j)%nat, y. repeat split; auto; try lia.
    rewrite <- Hj. clear. revert d. induction k; intros d; simpl; auto. destruct d; simpl; auto. now destruct j.
  - exfalso. apply Forall_Exists_neg in N.
    assert (Q := filter_perm_length (fun y => y <=? x) _ _ P).
    rewrite <- (firstn_skipn k d) in Q at 1. rewrite !filter_app, !app_length in Q.
    rewrite (filter_none _ (skipn k d)) in Q.
    2: { eapply Forall_impl; [|exact N]. simpl. intros; lia. }
    rewrite (filter_all _ a) in Q by (eapply Forall_impl; [|exact Ha]; simpl; intros; lia).
    simpl in Q. rewrite (proj2 (Z.leb_le x x)) in Q by lia. simpl in Q.
    pose proof (filter_length_le (fun y => y <=? x) (firstn k d)). rewrite firstn_length in H. lia.
Qed.

Lemma rank_high d k x : rank_is d k x -> exists i y, (i <= k)%nat /\ nth_error d i = Some y /\ x <= y.
Proof.
  intros (a & b & P & La & Ha & Hb).
  destruct (Exists_dec (fun y => x <= y) (firstn (S k) d) (fun y => Z_le_dec x y)) as [E|N].
  - apply Exists_exists in E as (y & Hy & L). apply In_nth_error in Hy as [j Hj].
    assert (j < length (firstn (S k) d))%nat by (apply nth_error_Some; congruence). rewrite firstn_length in H.
    exists j, y. repeat split; auto; try lia.
    rewrite <- Hj. symmetry. rewrite <- (firstn_skipn (S k) d) at 2. rewrite nth_error_app1; auto.
    rewrite firstn_length. lia.
  - exfalso. apply Forall_Exists_neg in N.
    assert (Q := filter_perm_length (fun y => y <? x) _ _ P).
    rewrite <- (firstn_skipn (S k) d) in Q at 1. rewrite !filter_app, !app_length in Q.
    rewrite (filter_all _ (firstn (S k) d)) in Q.
    2: { eapply Forall_impl; [|exact N]. simpl. intros; lia. }
    simpl in Q. rewrite (proj2 (Z.ltb_ge x x)) in Q by lia.
    rewrite (filter_none _ b) in Q by (eapply Forall_impl; [|exact Hb]; simpl; intros; lia).
    pose proof (filter_length_le (fun y => y <? x) a).
    apply Permutation_length in P. rewrite app_length in P. simpl in P.
    change (match d with [] => [] | y :: t => y :: firstn k t end) with (firstn (S k) d) in Q.
    rewrite firstn_length in Q. lia.
Qed.

Lemma sorted_nth_mono l i j x y : StronglySorted Z.le l -> (i <= j)%nat ->
  nth_error l i = Some x -> nth_error l j = Some y -> x <= y.
Proof.
  intros HS. revert i j. induction HS as [|z l HS IH HF]; intros i j Hij Hi Hj.
  - destruct i; discriminate.
  - destruct i, j; simpl in *; try lia.
    + injection Hi as ->. injection Hj as ->. lia.
    + injection Hi as ->. rewrite Forall_forall in HF. apply HF. eapply nth_error_In; eauto.
    + eapply (IH i j); eauto. lia.
Qed.

(** If position i of [d] holds the i-th smallest value of level [s i], ranks of [d] are enclosed by ranks of the levels. *)
Lemma strat_ranks (lv : nat -> list Z) (s : nat -> nat) d k x :
  (forall i, (i < length d)%nat -> nth_error d i = nth_error (isort (lv (s i))) i) ->
  rank_is d k x ->
  (exists i y, (i < length d)%nat /\ rank_is (lv (s i)) k y /\ y <= x) /\
  (exists i y, (i < length d)%nat /\ rank_clipped (lv (s i)) k y /\ x <= y).
Proof.
  intros H R. split.
  - destruct (rank_low _ _ _ R) as (i & y & Hi & Ey & Hy). assert (Li : (i < length d)%nat) by (apply nth_error_Some; congruence).
    rewrite H in Ey by auto.
    assert (Lk : (i < length (isort (lv (s i))))%nat) by (apply nth_error_Some; congruence).
    destruct (nth_error (isort (lv (s i))) k) as [z|] eqn:Ez.
    + exists i, z. split; [auto|]. split; [now apply rank_is_nth_error|].
      assert (z <= y); [|lia]. exact (sorted_nth_mono _ k i z y (isort_sorted _) Hi Ez Ey).
    + apply nth_error_None in Ez. lia.
  - destruct (rank_high _ _ _ R) as (i & y & Hi & Ey & Hy). assert (Li : (i < length d)%nat) by (apply nth_error_Some; congruence).
    rewrite H in Ey by auto.
    assert (Lk : (i < length (isort (lv (s i))))%nat) by (apply nth_error_Some; congruence).
    assert (Ll := isort_length (lv (s i))).
    destruct (nth_error (isort (lv (s i))) (Nat.min k (length (lv (s i)) - 1))) as [z|] eqn:Ez.
    + exists i, z. split; [auto|]. split; [now apply rank_is_nth_error|].
      assert (y <= z); [|lia]. eapply (sorted_nth_mono (isort (lv (s i)))); [apply isort_sorted| |exact Ey|exact Ez]. lia.
    + apply nth_error_None in Ez. lia.
Qed.
