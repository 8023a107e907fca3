(** Invariants of the reducer. *)
From Coq Require Import ZArith List Bool Permutation Lia Arith Reals.
From Verif Require Import Base SortFacts ModelTypes ModelAvg AvgProofs ModelReducer SpecReducer ListFacts LoopProofs.
Import ListNotations.
Local Open Scope Z_scope.

Lemma u64_range z : 0 <= u64 z < two64.
Proof. unfold u64, two64. apply Z.mod_pos_bound. lia. Qed.

Lemma u64_id z : 0 <= z < two64 -> u64 z = z.
Proof. unfold u64. apply Z.mod_small. Qed.

Lemma u64_add_l a b : u64 (u64 a + b) = u64 (a + b).
Proof. unfold u64. apply Zplus_mod_idemp_l. Qed.

Lemma u64_add_r a b : u64 (a + u64 b) = u64 (a + b).
Proof. unfold u64. apply Zplus_mod_idemp_r. Qed.

Lemma u64_congr a b : u64 a = u64 b <-> exists k, a = b + k * two64.
Proof.
  unfold u64. split.
  - intros H. exists (a / two64 - b / two64).
    rewrite (Z.div_mod a two64), (Z.div_mod b two64) at 1 by (unfold two64; lia). lia.
  - intros [k ->]. apply Z_mod_plus_full.
Qed.

(** Rows: all full except the last, which is non-empty. *)
Definition shape (limit levels : nat) (d : list (list Z)) : Prop :=
  d = [] \/
  exists init lst, d = init ++ [lst] /\ Forall (fun v => length v = limit) init /\
    (1 <= length lst <= limit)%nat /\ (length d <= levels)%nat.

(** The running average of a list of values. *)
Definition avg_acc (p : f64 * Z) (v : Z) : f64 * Z :=
  (avg_step (fst p) (u64 (snd p + 1)) v, u64 (snd p + 1)).
Definition avg_of (vs : list Z) : f64 * Z := fold_left avg_acc vs (avg0, 0).

(** State invariant with ghost lists: [vs] values added, [es] extremes. *)
Record RInv (o : ropts) (vs es : list Z) (r : reducer) : Prop := mkRInv {
  inv_opt : r_opt r = ctor_opt o;
  inv_shape : shape (o_limit o) (o_levels o) (r_data r);
  inv_min : r_min r = fold_right Z.min i64_max es;
  inv_max : r_max r = fold_right Z.max i64_min es;
  inv_avg : (r_avg r, r_avgc r) = avg_of vs;
  inv_sub : submultiset (concat (r_data r)) vs;
  inv_first : (1 <= o_levels o)%nat -> length (hd [] (r_data r)) = Nat.min (length vs) (o_limit o);
  inv_full : (1 <= length (r_data r))%nat -> (length (concat (r_data r)) < length vs)%nat ->
             length (hd [] (r_data r)) = o_limit o;
  inv_lossy_range : 0 <= r_lossy r < two64;
  inv_total_range : 0 <= r_total r < two64;
  inv_cur : o_mode (ctor_opt o) <> Adapt -> r_cur r = ctor_cur o
}.

Lemma ctor_opt_limit o : o_limit (ctor_opt o) = o_limit o.
Proof. unfold ctor_opt. destruct (o_mode o); auto. destruct (_ || _); auto. Qed.
Lemma ctor_opt_levels o : o_levels (ctor_opt o) = o_levels o.
Proof. unfold ctor_opt. destruct (o_mode o); auto. destruct (_ || _); auto. Qed.
Lemma ctor_opt_idem o : ctor_opt (ctor_opt o) = ctor_opt o.
Proof.
  unfold ctor_opt. destruct (o_mode o) eqn:E; rewrite ?E; auto.
  destruct (_ || _) eqn:E2; simpl; rewrite ?E, ?E2; auto.
Qed.

Lemma fold_min_app l m : fold_right Z.min i64_max (l ++ m) =
  Z.min (fold_right Z.min i64_max l) (fold_right Z.min i64_max m).
Proof.
  assert (H : forall l, fold_right Z.min i64_max l <= i64_max) by (induction l0; simpl; lia).
  induction l; simpl; [specialize (H m)|]; lia.
Qed.
Lemma fold_max_app l m : fold_right Z.max i64_min (l ++ m) =
  Z.max (fold_right Z.max i64_min l) (fold_right Z.max i64_min m).
Proof.
  assert (H : forall l, i64_min <= fold_right Z.max i64_min l) by (induction l0; simpl; lia).
  induction l; simpl; [specialize (H m)|]; lia.
Qed.

Lemma RInv_new o : RInv o [] [] (reducer_new o).
Proof.
  constructor; simpl; auto; try (unfold two64; lia).
  - now left.
  - exists []. reflexivity.
Qed.

Lemma RInv_clear o vs es r : RInv o vs es r -> RInv o [] [] (r_clear r).
Proof.
  intros []. constructor; simpl; auto; try (unfold two64; lia).
  - now left.
  - exists []. reflexivity.
Qed.

Lemma upd_last_isort_perm d : Permutation (concat (upd_last isort d)) (concat d).
Proof.
  destruct (list_snoc d) as [->|(a & x & ->)]; [reflexivity|].
  rewrite upd_last_app, !concat_snoc. apply Permutation_app_head. symmetry. apply isort_perm.
Qed.

Lemma hd_upd_last_length f d : (forall v, length (f v) = length v) -> 
  length (hd [] (upd_last f d)) = length (hd [] d).
Proof.
  intros H. destruct d as [|x [|y d]]; simpl; auto.
Qed.

Lemma upd_last_shape f limit levels d : (forall v, length (f v) = length v) ->
  shape limit levels d -> shape limit levels (upd_last f d).
Proof.
  intros Hf [->|(init & lst & -> & Hi & Hl & Hn)]; [now left|].
  right. rewrite upd_last_app. exists init, (f lst). rewrite Hf. repeat split; auto; try lia.
  rewrite app_length in *. simpl in *. auto.
Qed.

Lemma hd_app (d : list (list Z)) x : d <> [] -> hd [] (d ++ x) = hd [] d.
Proof. destruct d; simpl; congruence. Qed.

Lemma shape_length limit levels d : shape limit levels d ->
  length (concat d) = ((length d - 1) * limit + length (back d))%nat.
Proof.
  intros [->|(init & lst & -> & Hi & Hl & Hn)]; [reflexivity|].
  rewrite concat_snoc, app_length, (concat_length_const _ limit) by auto.
  rewrite back_app, app_length. simpl. f_equal. f_equal. lia.
Qed.

(** One value added. *)
Lemma RInv_add1 o vs es r v :
  RInv o vs es r -> RInv o (vs ++ [v]) (es ++ [v]) (r_add1 v r).
Proof.
  intros I. destruct I as [Io Is Imn Imx Ia Isub If Ifull Il It Ic].
  assert (Avg : (avg_step (r_avg r) (u64 (r_avgc r + 1)) v, u64 (r_avgc r + 1)) = avg_of (vs ++ [v])).
  { unfold avg_of. rewrite fold_left_app. simpl. fold (avg_of vs). rewrite <- Ia. reflexivity. }
  assert (Mn : Z.min (r_min r) v = fold_right Z.min i64_max (es ++ [v])).
  { rewrite fold_min_app, Imn. simpl. assert (fold_right Z.min i64_max es <= i64_max) by (clear; induction es; simpl; lia). lia. }
  assert (Mx : Z.max (r_max r) v = fold_right Z.max i64_min (es ++ [v])).
  { rewrite fold_max_app, Imx. simpl. assert (i64_min <= fold_right Z.max i64_min es) by (clear; induction es; simpl; lia). lia. }
  unfold r_add1. rewrite Io, ctor_opt_limit, ctor_opt_levels.
  destruct (match r_data r with [] => true | _ => false end || (length (back (r_data r)) =? o_limit o)%nat) eqn:E1.
  - destruct ((length (r_data r) =? o_levels o)%nat || (o_limit o =? 0)%nat) eqn:E2.
    + (* dropped *)
      constructor; simpl; auto using u64_range.
      * now apply submultiset_app_r.
      * intros Hlev. rewrite app_length. simpl.
        apply orb_true_iff in E2. destruct E2 as [E2|E2].
        -- apply Nat.eqb_eq in E2.
           destruct Is as [Hd|(init & lst & Ed & Hi & Hl & Hn)].
           { rewrite Hd in E2. simpl in E2. lia. }
           rewrite Ed in *. destruct init as [|v0 init]; simpl in *.
           ++ try rewrite orb_false_l in E1. apply Nat.eqb_eq in E1. unfold back in E1. simpl in E1.
              specialize (If Hlev). lia.
           ++ assert (Hv0 := Forall_inv Hi). specialize (If Hlev). simpl in Hv0. lia.
        -- apply Nat.eqb_eq in E2. rewrite E2 in *. 
           destruct Is as [Hd|(init & lst & Ed & Hi & Hl & Hn)]; [rewrite Hd; simpl; lia|lia].
      * intros Hd Hlt. 
        destruct Is as [Hd'|(init & lst & Ed & Hi & Hl & Hn)].
        { rewrite Hd' in Hd. simpl in Hd. lia. }
        rewrite Ed in *. destruct init as [|v0 init]; simpl in *.
        ++ try rewrite orb_false_l in E1. apply Nat.eqb_eq in E1. unfold back in E1. simpl in E1. lia.
        ++ assert (Hv0 := Forall_inv Hi). exact Hv0.
    + (* new row *)
      apply orb_false_iff in E2 as [E2 E3]. apply Nat.eqb_neq in E2, E3.
      set (d1 := if rmode_eqb (r_cur r) Sorting && negb match r_data r with [] => true | _ => false end
                 then upd_last isort (r_data r) else r_data r).
      assert (P1 : Permutation (concat d1) (concat (r_data r))).
      { unfold d1. destruct (_ && _); [apply upd_last_isort_perm|reflexivity]. }
      assert (S1 : shape (o_limit o) (o_levels o) d1).
      { unfold d1. destruct (_ && _); auto. apply upd_last_shape; auto using isort_length. }
      assert (L1 : length d1 = length (r_data r)).
      { unfold d1. destruct (_ && _); auto. apply upd_last_length. }
      assert (H1 : length (hd [] d1) = length (hd [] (r_data r))).
      { unfold d1. destruct (_ && _); auto. apply hd_upd_last_length, isort_length. }
      assert (B1 : length (back d1) = length (back (r_data r))).
      { unfold d1. destruct (_ && _); auto. destruct (list_snoc (r_data r)) as [->|(a & x & ->)]; auto.
        rewrite upd_last_app, !back_app. apply isort_length. }
      assert (F1 : Forall (fun v => length v = o_limit o) d1 /\ (length d1 <= o_levels o)%nat).
      { destruct S1 as [S1|(init & lst & Ed & Hi & Hl & Hn)]; [rewrite S1; split; [constructor|simpl; lia]|].
        split; auto. rewrite Ed. apply Forall_app; split; auto. constructor; auto.
        rewrite Ed, back_app in B1. 
        destruct (r_data r) as [|x d] eqn:Er.
        - rewrite Ed, app_length in L1. simpl in L1. lia.
        - try rewrite orb_false_l in E1. apply Nat.eqb_eq in E1. lia. }
      destruct F1 as [F1 Hlen1].
      constructor; simpl; auto.
      * right. exists d1, [v]. repeat split; simpl; auto; try lia.
        rewrite app_length. simpl. lia.
      * rewrite concat_snoc. destruct Isub as [q Q]. exists q.
        rewrite <- Q. rewrite <- P1. rewrite <- app_assoc. rewrite (Permutation_app_comm [v]). now rewrite app_assoc.
      * intros Hlev. specialize (If Hlev). rewrite app_length. simpl.
        destruct d1 as [|x d1'] eqn:Ed1.
        -- simpl in *. destruct (r_data r); simpl in *; [|lia]. lia.
        -- simpl in *. assert (Hx := Forall_inv F1). simpl in Hx. lia.
      * intros _ Hlt. rewrite concat_snoc, !app_length in Hlt. simpl in Hlt.
        destruct d1 as [|x d1'] eqn:Ed1.
        -- simpl in *. destruct (r_data r); simpl in *; [|lia].
           assert (1 <= o_levels o)%nat by lia. specialize (If H). simpl in If. lia.
        -- simpl in *. assert (Hx := Forall_inv F1). exact Hx.
  - (* room in the last row *)
    apply orb_false_iff in E1 as [E0 E1]. apply Nat.eqb_neq in E1.
    destruct Is as [Hd|(init & lst & Ed & Hi & Hl & Hn)]; [rewrite Hd in E0; discriminate|].
    rewrite Ed in *. rewrite back_app in E1. rewrite upd_last_app.
    constructor; simpl; auto.
    * right. exists init, (lst ++ [v]). rewrite !app_length in *. simpl in *. repeat split; auto; lia.
    * rewrite concat_snoc. rewrite concat_snoc in Isub. destruct Isub as [q Q]. exists q.
      rewrite <- Q. rewrite <- !app_assoc. do 2 apply Permutation_app_head. apply Permutation_app_comm.
    * intros Hlev. specialize (If Hlev). rewrite app_length. simpl.
      destruct init as [|v0 init]; simpl in *.
      -- rewrite app_length. simpl. lia.
      -- assert (Hv0 := Forall_inv Hi). simpl in Hv0. lia.
    * intros _ Hlt. rewrite concat_snoc, !app_length in Hlt. rewrite concat_snoc, app_length in Ifull. simpl in Hlt.
      destruct init as [|v0 init]; simpl in *.
      -- specialize (Ifull ltac:(lia) ltac:(lia)). lia.
      -- assert (Hv0 := Forall_inv Hi). exact Hv0.
Qed.

Lemma RInv_minmax o vs es r v : RInv o vs es r -> RInv o vs (es ++ [v]) (r_minmax v r).
Proof.
  intros []. constructor; simpl; auto.
  - rewrite fold_min_app, inv_min0. simpl.
    assert (fold_right Z.min i64_max es <= i64_max) by (clear; induction es; simpl; lia). lia.
  - rewrite fold_max_app, inv_max0. simpl.
    assert (i64_min <= fold_right Z.max i64_min es) by (clear; induction es; simpl; lia). lia.
Qed.

Lemma RInv_account o vs es r t l : RInv o vs es r -> RInv o vs es (r_account t l r).
Proof. intros []. constructor; simpl; auto using u64_range. Qed.

Lemma RInv_add_all o vs es r us : RInv o vs es r -> RInv o (vs ++ us) (es ++ us) (r_add_all us r).
Proof.
  revert vs es r; induction us as [|u us IH]; intros vs es r I; simpl.
  - now rewrite !app_nil_r.
  - apply (RInv_add1 o vs es r u) in I. apply IH in I. now rewrite <- !app_assoc in I.
Qed.

Definition stored (r : reducer) : Z := Z.of_nat (length (concat (r_data r))).

Lemma add1_total v r : r_total (r_add1 v r) = r_total r.
Proof. unfold r_add1. destruct (_ || _); auto. destruct (_ || _); auto. Qed.
Lemma add1_empty v r : r_empty (r_add1 v r) = r_empty r.
Proof. unfold r_add1. destruct (_ || _); auto. destruct (_ || _); auto. Qed.

Lemma add1_bal v r : u64 (r_lossy (r_add1 v r) + stored (r_add1 v r)) = u64 (r_lossy r + stored r + 1).
Proof.
  unfold r_add1, stored. cbv zeta.
  destruct (match r_data r with [] => true | _ => false end || _) eqn:E1.
  - destruct ((length (r_data r) =? o_levels (r_opt r))%nat || (o_limit (r_opt r) =? 0)%nat) eqn:E2; simpl.
    + rewrite u64_add_l. f_equal. lia.
    + f_equal. rewrite concat_snoc, app_length. simpl.
      destruct (_ && _); rewrite ?(Permutation_length (upd_last_isort_perm (r_data r))); lia.
  - simpl. f_equal. apply orb_false_iff in E1 as [E1 _].
    destruct (list_snoc (r_data r)) as [E|(a & x & E)]; rewrite E in *; [discriminate|].
    rewrite upd_last_app, !concat_snoc, !app_length. simpl. lia.
Qed.

Lemma add_all_total vs r : r_total (r_add_all vs r) = r_total r.
Proof. revert r; induction vs; intros r; simpl; auto. rewrite IHvs. apply add1_total. Qed.
Lemma add_all_empty vs r : r_empty (r_add_all vs r) = r_empty r.
Proof. revert r; induction vs; intros r; simpl; auto. rewrite IHvs. apply add1_empty. Qed.

Lemma add_all_bal vs r : u64 (r_lossy (r_add_all vs r) + stored (r_add_all vs r)) =
  u64 (r_lossy r + stored r + Z.of_nat (length vs)).
Proof.
  revert r; induction vs as [|v vs IH]; intros r.
  - simpl. f_equal. lia.
  - simpl r_add_all. unfold r_add_all in IH. rewrite IH.
    rewrite <- u64_add_l. rewrite add1_bal, u64_add_l. f_equal. simpl length. lia.
Qed.

(** Invariant of a reducer whose current window of add calls is [w]. *)
Record WInv (o : ropts) (w : list rop) (r : reducer) : Prop := mkWInv {
  w_inv : RInv o (values w) (extremes w) r;
  w_total : r_total r = u64 (declared w);
  w_bal : u64 (r_lossy r + stored r) = u64 (declared w + excess w);
  w_empty : r_empty r = match w with [] => true | _ => false end
}.

Lemma values_app w v : values (w ++ v) = values w ++ values v.
Proof. apply flat_map_app. Qed.
Lemma extremes_app w v : extremes (w ++ v) = extremes w ++ extremes v.
Proof. apply flat_map_app. Qed.
Lemma fold_add_app l m : fold_right Z.add 0 (l ++ m) = fold_right Z.add 0 l + fold_right Z.add 0 m.
Proof. induction l; simpl; lia. Qed.
Lemma declared_app w v : declared (w ++ v) = declared w + declared v.
Proof. unfold declared. rewrite map_app. apply fold_add_app. Qed.
Lemma excess_app w v : excess (w ++ v) = excess w + excess v.
Proof. unfold excess. rewrite map_app. apply fold_add_app. Qed.

Lemma declared_one op : declared [op] = op_declared op.
Proof. unfold declared. simpl. lia. Qed.
Lemma excess_one op : excess [op] = op_excess op.
Proof. unfold excess. simpl. lia. Qed.

Lemma WInv_new o : WInv o [] (reducer_new o).
Proof. constructor; auto using RInv_new. Qed.
Lemma WInv_clear o w r : WInv o w r -> WInv o [] (r_clear r).
Proof. intros []. constructor; simpl; auto. eapply RInv_clear; eauto. Qed.

Lemma snoc_match {A B} (w : list A) x (a b : B) : match w ++ [x] with [] => a | _ => b end = b.
Proof. destruct w; auto. Qed.

(** Generic add of [us] declaring [c] events and extra extremes [ex]. *)
Lemma WInv_add_arr_gen o w r us c op :
  WInv o w r -> 0 <= c ->
  op_values op = us -> op_declared op = c -> op_extremes op = us ->
  WInv o (w ++ [op])
    (r_account c (if Z.of_nat (length us) <? c then c - Z.of_nat (length us) else 0) (r_add_all us r)).
Proof.
  intros [I T B E] Hc Ev Ed Ee. constructor.
  - rewrite values_app, extremes_app. unfold values at 2, extremes at 2. simpl. rewrite Ev, Ee, !app_nil_r.
    apply RInv_account. now apply RInv_add_all.
  - simpl. rewrite add_all_total, T, u64_add_l, declared_app, declared_one, Ed. reflexivity.
  - simpl. rewrite u64_add_l. unfold stored; simpl; fold (stored (r_add_all us r)).
    rewrite declared_app, excess_app, declared_one, excess_one. unfold op_excess. rewrite Ev, Ed.
    match goal with |- u64 (?a + ?x + ?b) = _ => replace (a + x + b) with ((a + b) + x) by lia end.
    rewrite <- u64_add_l, add_all_bal, u64_add_l.
    match goal with |- u64 (?a + ?b + ?x + ?y) = _ => replace (a + b + x + y) with ((a + b) + (x + y)) by lia end.
    rewrite <- u64_add_l, B, u64_add_l. f_equal.
    destruct (Z.ltb_spec (Z.of_nat (length us)) c); lia.
  - simpl. now rewrite snoc_match.
Qed.

Lemma minmax_stored v r : stored (r_minmax v r) = stored r. Proof. reflexivity. Qed.

Lemma WInv_add_red o w r d :
  WInv o w r -> 0 <= ri_count (rd_info d) -> WInv o (w ++ [OpAddRed d]) (r_add_red d r).
Proof.
  intros [I T B E] Hc.
  assert (W : WInv o (w ++ [OpAddArr (rd_data d) (ri_count (rd_info d))])
                (r_add_arr (rd_data d) (ri_count (rd_info d)) r)).
  { apply WInv_add_arr_gen; auto; [constructor; auto|]. unfold op_extremes. simpl. now rewrite app_nil_r. }
  destruct W as [I' T' B' E'].
  rewrite values_app, extremes_app in I'. unfold values at 2, extremes at 2 in I'. simpl in I'.
  rewrite !app_nil_r in I'. unfold op_extremes in I'. simpl in I'. rewrite !app_nil_r in I'.
  assert (J : RInv o (values (w ++ [OpAddRed d])) (extremes (w ++ [OpAddRed d])) (r_add_red d r)).
  { rewrite values_app, extremes_app. unfold values at 2, extremes at 2. simpl.
    rewrite !app_nil_r. unfold op_extremes. simpl op_values. unfold r_add_red. simpl filter.
    destruct (negb (ri_min (rd_info d) =? 0)) eqn:E1; destruct (negb (ri_max (rd_info d) =? 0)) eqn:E2.
    - change [ri_min (rd_info d); ri_max (rd_info d)] with ([ri_min (rd_info d)] ++ [ri_max (rd_info d)]).
      rewrite !app_assoc. apply RInv_minmax, RInv_minmax. auto.
    - rewrite !app_assoc. apply RInv_minmax; auto.
    - rewrite !app_assoc. apply RInv_minmax; auto.
    - rewrite app_nil_r. auto. }
  assert (X : r_total (r_add_red d r) = r_total (r_add_arr (rd_data d) (ri_count (rd_info d)) r) /\
              r_lossy (r_add_red d r) = r_lossy (r_add_arr (rd_data d) (ri_count (rd_info d)) r) /\
              stored (r_add_red d r) = stored (r_add_arr (rd_data d) (ri_count (rd_info d)) r) /\
              r_empty (r_add_red d r) = false).
  { unfold r_add_red. destruct (negb (ri_min _ =? 0)), (negb (ri_max _ =? 0)); simpl; auto. }
  destruct X as (X1 & X2 & X3 & X4).
  constructor; auto.
  - rewrite X1, T'. rewrite !declared_app. reflexivity.
  - rewrite X2, X3, B'. rewrite !declared_app, !excess_app. reflexivity.
  - rewrite X4, snoc_match. reflexivity.
Qed.

Lemma shape_cases limit levels d : shape limit levels d ->
  d = [] \/ (exists v, d = [v] /\ (1 <= length v <= limit)%nat /\ (1 <= levels)%nat) \/
  (exists v0 A lst, d = v0 :: A ++ [lst] /\ length v0 = limit /\ Forall (fun v => length v = limit) A /\
     (1 <= length lst <= limit)%nat /\ (length d <= levels)%nat).
Proof.
  intros [->|(init & lst & -> & Hi & Hl & Hn)]; [now left|right].
  destruct init as [|v0 A]; simpl in *.
  - left. exists lst. split; [reflexivity|lia].
  - right. exists v0, A, lst. inversion Hi; subst. repeat split; auto; lia.
Qed.

Section NE.
  Variable ne : nat -> list Z -> list Z.
  Hypothesis Hne : nth_element_ok ne.

  (** reduce() succeeds, keeps every ghost quantity and leaves at most one row. *)
  Lemma reduce_ok o w r : WInv o w r ->
    exists r', r_reduce ne r = Ok r' /\ WInv o w r' /\ (length (r_data r') <= 1)%nat /\
      r_lossy r' = r_lossy_count r /\ r_min r' = r_min r /\ r_max r' = r_max r /\
      r_avg r' = r_avg r /\ r_avgc r' = r_avgc r /\ r_total r' = r_total r /\ r_empty r' = r_empty r.
  Proof.
    intros [I T B E]. assert (I' := I). destruct I' as [Io Is Imn Imx Ia Isub If Ifull Il It Ic].
    unfold r_reduce, r_lossy_count. rewrite Io, ctor_opt_limit.
    set (d0 := if rmode_eqb (r_cur r) Sorting then upd_last isort (r_data r) else r_data r).
    assert (P0 : Permutation (concat d0) (concat (r_data r))).
    { unfold d0. destruct (rmode_eqb _ _); [apply upd_last_isort_perm|reflexivity]. }
    assert (S0 : shape (o_limit o) (o_levels o) d0).
    { unfold d0. destruct (rmode_eqb _ _); auto. apply upd_last_shape; auto using isort_length. }
    assert (L0 : length d0 = length (r_data r)).
    { unfold d0. destruct (rmode_eqb _ _); auto. apply upd_last_length. }
    assert (H0 : length (hd [] d0) = length (hd [] (r_data r))).
    { unfold d0. destruct (rmode_eqb _ _); auto. apply hd_upd_last_length, isort_length. }
    assert (Hb : length (back d0) = length (back (r_data r))).
    { unfold d0. destruct (rmode_eqb _ _); auto. destruct (list_snoc (r_data r)) as [->|(a & x & ->)]; auto.
      rewrite upd_last_app, !back_app. apply isort_length. }
    destruct (r_data r) as [|x0 d] eqn:Ed.
    { exists r. split; [reflexivity|]. split; [constructor; auto|]. rewrite Ed. simpl. repeat split; auto. }
    clearbody d0.
    assert (Eb : (length (x0 :: d) <? 2)%nat = (length d0 =? 1)%nat).
    { rewrite L0. simpl. destruct d; auto. }
    rewrite Eb. clear Eb.
    destruct (length d0 =? 1)%nat eqn:El.
    - apply Nat.eqb_eq in El. eexists; split; [reflexivity|]. split; [|simpl; repeat split; auto; lia].
      constructor; simpl; auto.
      + constructor; simpl; auto.
        * eapply submultiset_perm_l; [symmetry; exact P0|auto].
        * intros. rewrite H0. auto.
        * rewrite (Permutation_length P0), L0, H0. auto.
      + unfold stored in *. simpl. rewrite (Permutation_length P0). rewrite Ed in B. auto.
    - apply Nat.eqb_neq in El.
      destruct (shape_cases _ _ _ S0) as [->|[(v & -> & _)|(v0 & A & lst & E0 & Hv0 & HA & Hl & Hn)]];
        [simpl in L0; discriminate|simpl in El; lia|].
      destruct (reduce_loop_entry ne Hne (r_cur r) (o_limit o) v0 A lst Hv0 HA Hl) as (v0' & oth & EL & LV & SV).
      rewrite <- E0 in EL, SV. rewrite EL. cbn [bind].
      eexists; split; [reflexivity|].
      assert (LC : Z.of_nat (length (concat (x0 :: d))) =
                   Z.of_nat (o_limit o) * Z.of_nat (length (x0 :: d) - 2) + Z.of_nat (length (back (x0 :: d))) + Z.of_nat (o_limit o)).
      { rewrite (shape_length _ _ _ Is). rewrite <- L0, E0. simpl. rewrite app_length. simpl. nia. }
      split; [|simpl; repeat split; auto; lia].
      constructor; simpl r_empty; simpl r_total; auto.
      + constructor; simpl; auto using u64_range.
        * right. exists [], v0'. simpl. repeat split; auto; try lia. rewrite E0 in Hn. simpl in Hn. lia.
        * rewrite app_nil_r. eapply submultiset_trans; [exact SV|].
          eapply submultiset_perm_l; [symmetry; exact P0|]. auto.
        * intros Hlev. specialize (If Hlev). rewrite <- H0, E0 in If. simpl in If. lia.
        * intros Hm. destruct (rmode_eqb (o_mode (ctor_opt o)) Adapt) eqn:Em; auto.
          exfalso. destruct (o_mode (ctor_opt o)); simpl in Em; congruence.
      + unfold stored in *. simpl r_lossy. simpl r_data. simpl concat. rewrite app_nil_r, LV.
        change (length (x0 :: d) - 2)%nat with (length d - 1)%nat in LC. rewrite u64_add_l. rewrite <- B, Ed, LC. apply (f_equal u64). lia.
  Qed.
End NE.

(** * The average *)
Lemma avg_of_snoc vs v : avg_of (vs ++ [v]) = avg_acc (avg_of vs) v.
Proof. unfold avg_of. now rewrite fold_left_app. Qed.

Lemma avg_of_count vs : Z.of_nat (length vs) < two64 -> snd (avg_of vs) = Z.of_nat (length vs).
Proof.
  induction vs as [|v vs IH] using rev_ind; intros H; [reflexivity|].
  rewrite avg_of_snoc, app_length in *. simpl in *. rewrite IH by lia.
  rewrite u64_id by lia. lia.
Qed.

Lemma avg_of_in (lo hi : R) vs :
  fmt lo -> fmt hi -> (- Raux.bpow Zaux.radix2 63 <= lo)%R -> (hi <= Raux.bpow Zaux.radix2 63)%R ->
  vs <> [] -> Z.of_nat (length vs) < two64 ->
  Forall (fun v => i64 v /\ (lo <= rnd (IZR v) <= hi)%R) vs ->
  avg_in lo hi (fst (avg_of vs)).
Proof.
  intros Fl Fh Bl Bh. induction vs as [|v vs IH] using rev_ind; intros Hne Hlen HF; [congruence|].
  apply Forall_app in HF as [HF Hv]. apply Forall_inv in Hv. destruct Hv as [Vi Vr].
  rewrite app_length in Hlen. simpl in Hlen.
  assert (Va : Z.abs v <= 2 ^ 63) by (unfold i64, i64_min, i64_max in Vi; lia).
  rewrite avg_of_snoc. unfold avg_acc. cbn [fst]. rewrite avg_of_count by lia. rewrite u64_id by lia.
  destruct vs as [|u vs].
  - exists (rnd (IZR v)). split; [apply avg_first; auto|auto].
  - apply avg_next; auto.
    + apply IH; auto; [congruence|lia].
    + simpl length in *. unfold two64 in *. lia.
Qed.

(** The cast of the average is defined for safe values. *)
Lemma avg_cast_safe vs : Forall val_safe vs -> Z.of_nat (length vs) < two64 ->
  exists z, f64_to_i64 (fst (avg_of vs)) = Ok z.
Proof.
  intros HF Hlen. destruct vs as [|v vs]; [exists 0; reflexivity|].
  (* the greatest rounded value *)
  assert (M : exists hi, fmt hi /\ (hi < Raux.bpow Zaux.radix2 63)%R /\
                         Forall (fun v => (rnd (IZR v) <= hi)%R) (v :: vs)).
  { clear Hlen. generalize dependent v. induction vs as [|u vs IH]; intros v HF.
    - exists (rnd (IZR v)). split; [apply fmt_rnd|]. split.
      + apply rnd_safe. exact (Forall_inv HF).
      + constructor; auto. apply Rle_refl.
    - destruct (IH u (Forall_inv_tail HF)) as (hi & F & B & A).
      destruct (Rle_or_lt (rnd (IZR v)) hi).
      + exists hi. auto.
      + exists (rnd (IZR v)). split; [apply fmt_rnd|]. split.
        * apply rnd_safe. exact (Forall_inv HF).
        * constructor; [apply Rle_refl|]. eapply Forall_impl; [|exact A]. simpl. intros.
          eapply Rle_trans; [eassumption|]. apply Rlt_le; auto. }
  destruct M as (hi & Fh & Bh & A).
  eapply (cast_lt _ (- Raux.bpow Zaux.radix2 63) hi); auto.
  - apply avg_of_in; auto; try congruence.
    + apply Generic_fmt.generic_format_opp, fmt_b63.
    + apply Rle_refl.
    + apply Rlt_le; auto.
    + apply Forall_forall. intros x Hx. rewrite Forall_forall in HF, A.
      specialize (HF _ Hx). destruct (rnd_safe x HF). unfold val_safe in HF. split.
      * unfold i64, i64_min, i64_max; lia.
      * split; auto.
  - apply Rle_refl.
Qed.

(** The average of values within +-2^53 lies between any bounds of the values. *)
Lemma avg_cast_bounds vs lo hi : vs <> [] -> Z.of_nat (length vs) < two64 ->
  - 2 ^ 53 <= lo -> hi <= 2 ^ 53 -> Forall (fun v => lo <= v <= hi) vs ->
  exists z, f64_to_i64 (fst (avg_of vs)) = Ok z /\ lo <= z <= hi.
Proof.
  intros Hne Hlen Hl Hh HF.
  assert (Hlh : lo <= hi).
  { destruct vs as [|v vs]; [congruence|]. assert (H := Forall_inv HF). simpl in H. lia. }
  assert (E : forall z, lo <= z <= hi -> rnd (IZR z) = IZR z) by (intros; apply rnd_exact; lia).
  apply cast_in; [|unfold i64_min; lia|unfold i64_max; lia].
  assert (B : Raux.bpow Zaux.radix2 63 = IZR (2 ^ 63)) by (apply bpow_IZR; lia).
  apply avg_of_in; auto.
  - rewrite <- E by lia. apply fmt_rnd.
  - rewrite <- (E hi) by lia. apply fmt_rnd.
  - rewrite B, <- opp_IZR. apply IZR_le. lia.
  - rewrite B. apply IZR_le. lia.
  - eapply Forall_impl; [|exact HF]. simpl. intros v Hv. split.
    + unfold i64, i64_min, i64_max; lia.
    + rewrite E by lia. split; apply IZR_le; lia.
Qed.

(** * detach, clone, histories *)
Lemma ctor_cur_opt o : o_mode (ctor_opt o) <> Adapt -> ctor_cur (ctor_opt o) = ctor_cur o.
Proof.
  unfold ctor_opt, ctor_cur. destruct (o_mode o) eqn:Em; rewrite ?Em; auto.
  destruct (_ || _) eqn:E; simpl; rewrite ?Em; auto. congruence.
Qed.

Lemma clone_inv o w r : WInv o w r -> WInv o w (r_clone r).
Proof.
  intros [I T B E]. destruct I as [Io Is Imn Imx Ia Isub If Ifull Il It Ic].
  unfold r_clone. constructor; simpl; auto. constructor; simpl; auto.
  - rewrite Io. apply ctor_opt_idem.
  - intros Hm. rewrite Io. now apply ctor_cur_opt.
Qed.

(** With a fixed mode the clone is the object itself. *)
Lemma clone_fixed o w r : WInv o w r -> o_mode (ctor_opt o) <> Adapt -> r_clone r = r.
Proof.
  intros [I T B E] Hm. destruct I as [Io Is Imn Imx Ia Isub If Ifull Il It Ic].
  unfold r_clone. simpl. rewrite Io, ctor_opt_idem, ctor_cur_opt by auto. rewrite <- Io, <- Ic by auto.
  destruct r; reflexivity.
Qed.

(** What detach publishes, when the cast succeeds. *)
Definition published (o : ropts) (w : list rop) (a : adata) : Prop :=
  ad_ts a = 0 /\ ad_perc a = perc0 /\
  ad_count a = u64 (declared w) /\
  u64 (ad_lossy a + Z.of_nat (length (ad_data a))) = u64 (declared w + excess w) /\
  0 <= ad_lossy a < two64 /\
  ad_min a = fold_right Z.min i64_max (extremes w) /\
  ad_max a = fold_right Z.max i64_min (extremes w) /\
  f64_to_i64 (fst (avg_of (values w))) = Ok (ad_avg a) /\
  submultiset (ad_data a) (values w) /\
  length (ad_data a) = (if (o_levels o =? 0)%nat then O else Nat.min (length (values w)) (o_limit o)).

Section NE2.
  Variable ne : nat -> list Z -> list Z.
  Hypothesis Hne : nth_element_ok ne.

  Lemma detach_spec o w r : WInv o w r ->
    match f64_to_i64 (fst (avg_of (values w))) with
    | Ok _ =>
        exists a r', r_detach ne r = Ok (a, r') /\ WInv o [] r' /\ r_data r' = [] /\
          match w with
          | [] => a = None
          | _ => exists x, a = Some x /\ published o w x /\ ad_lossy x = r_lossy_count r
          end
    | Ub => w <> [] -> r_detach ne r = Ub
    | Exn => False
    end.
  Proof.
    intros W. destruct (reduce_ok ne Hne o w r W) as (r1 & E1 & W1 & L1 & Q1 & Q2 & Q3 & Q4 & Q5 & Q6 & Q7).
    assert (Ea : r_avg r1 = fst (avg_of (values w))).
    { destruct W1 as [[]]. now rewrite <- inv_avg0. }
    unfold r_detach. rewrite (w_empty _ _ _ W). 
    destruct w as [|op w].
    { simpl. exists None, r. split; [reflexivity|]. split; [exact W|]. split; [|reflexivity].
      destruct W as [[]]. destruct inv_sub0 as [q Q]. unfold values in Q. simpl in Q.
      apply Permutation_sym, Permutation_nil in Q. apply app_eq_nil in Q as [Q _].
      destruct inv_shape0 as [?|(init & lst & Ed & _ & Hl & _)]; auto.
      rewrite Ed, concat_snoc in Q. apply app_eq_nil in Q as [_ ->]. simpl in Hl. lia. }
    rewrite E1. cbn [bind]. rewrite Ea.
    destruct (f64_to_i64 (fst (avg_of (values (op :: w))))) as [z| |] eqn:Ez; cbn [bind]; auto.
    - eexists _, _. split; [reflexivity|]. split; [eapply WInv_clear; eauto|]. split; [reflexivity|].
      eexists. split; [reflexivity|].
      assert (L2 := L1). destruct W1 as [I1 T1 B1 _]. destruct I1 as [Io Is Imn Imx Ia Isub If Ifull Il It Ic].
      assert (HD : match r_data r1 with [] => [] | v :: _ => v end = concat (r_data r1)).
      { destruct (r_data r1) as [|v [|]]; simpl; auto; [now rewrite app_nil_r|simpl in L1; lia]. }
      split; [|simpl; auto].
      unfold published, ad_ts, ad_count, ad_lossy, ad_min, ad_max, ad_avg; simpl.
      rewrite HD. repeat split; auto; try lia.
      + change (op_values op ++ values w) with (values (op :: w)). destruct (Nat.eqb_spec (o_levels o) 0) as [Hz|Hz].
        * destruct Is as [->|(init & lst & Ed & _ & _ & Hn)]; auto.
          rewrite Ed in *. rewrite app_length in Hn. simpl in Hn. lia.
        * rewrite <- If by lia. destruct (r_data r1) as [|v [|]]; simpl; auto; [now rewrite app_nil_r|simpl in L1; lia].
    - unfold f64_to_i64 in Ez. destruct (fst _); try discriminate. unfold chk in Ez. destruct (in_i64 _); discriminate.
  Qed.

  (** Calls preserve the invariant. *)
  Lemma step_inv o w r op r' : WInv o w r -> op_typed op -> r_step ne r op = Ok r' ->
    WInv o (window_step w op) r'.
  Proof.
    intros W [_ Ty] E. destruct op; simpl in *.
    - injection E as <-. unfold r_add.
      replace (if 1 <? count then count - 1 else 0) with
        (if Z.of_nat (length [v]) <? count then count - Z.of_nat (length [v]) else 0) by reflexivity.
      change (r_add1 v r) with (r_add_all [v] r).
      apply WInv_add_arr_gen; auto. unfold is_u64 in Ty; lia.
    - injection E as <-. apply WInv_add_arr_gen; auto.
      + unfold is_u64 in Ty; lia.
      + unfold op_extremes; simpl; now rewrite app_nil_r.
    - injection E as <-. apply WInv_add_arr_gen; auto.
      + lia.
      + unfold op_extremes; simpl; now rewrite app_nil_r.
    - injection E as <-. unfold r_add_list.
      replace (r_account (Z.of_nat (length vs)) 0) with
        (r_account (Z.of_nat (length vs)) (if Z.of_nat (length vs) <? Z.of_nat (length vs) then Z.of_nat (length vs) - Z.of_nat (length vs) else 0)) by (now rewrite Z.ltb_irrefl).
      apply WInv_add_arr_gen; auto.
      + lia.
      + unfold op_extremes; simpl; now rewrite app_nil_r.
    - injection E as <-. apply WInv_add_red; auto. unfold is_u64 in Ty; lia.
    - destruct (reduce_ok ne Hne o w r W) as (r1 & E1 & W1 & _). congruence.
    - destruct (r_get_reduced ne r); simpl in E; try discriminate. injection E as <-; auto.
    - injection E as <-. eapply WInv_clear; eauto.
    - pose proof (detach_spec o w r W) as D.
      destruct (f64_to_i64 (fst (avg_of (values w)))) eqn:Ez.
      + destruct D as (a' & r1 & Ed & W1 & _). rewrite Ed in E. simpl in E. injection E as <-. auto.
      + destruct w as [|op w]; [discriminate Ez|].
        rewrite D in E by discriminate. discriminate.
      + contradiction.
  Qed.

  Lemma run_inv_gen o ops : forall w r r', WInv o w r -> Forall op_typed ops ->
    r_run ne r ops = Ok r' -> WInv o (fold_left window_step ops w) r'.
  Proof.
    induction ops as [|op ops IH]; intros w r r' W HT E; simpl in *.
    - injection E as <-. auto.
    - destruct (r_step ne r op) as [r1| |] eqn:E1; simpl in E; try discriminate.
      eapply IH; [|exact (Forall_inv_tail HT)|eauto]. eapply step_inv; eauto. exact (Forall_inv HT).
  Qed.

  Lemma run_inv o ops r : Forall op_typed ops -> r_run ne (reducer_new o) ops = Ok r -> WInv o (window ops) r.
  Proof. intros HT E. unfold window. eapply run_inv_gen; eauto. apply WInv_new. Qed.

  Lemma window_values_sub ops w : 
    (length (values (fold_left window_step ops w)) <= length (values w) + length (values ops))%nat /\
    (Forall val_safe (values w) -> Forall op_safe ops -> Forall val_safe (values (fold_left window_step ops w))).
  Proof.
    revert w; induction ops as [|op ops IH]; intros w; simpl.
    - split; [unfold values; simpl; lia|auto].
    - destruct (IH (window_step w op)) as [IH1 IH2]. split.
      + change (values (op :: ops)) with (op_values op ++ values ops). rewrite app_length.
        assert (length (values (window_step w op)) <= length (values w) + length (op_values op))%nat; [|lia].
        destruct op; simpl window_step; try (rewrite values_app, app_length; unfold values at 2; simpl; rewrite ?app_nil_r; simpl; lia);
          try (simpl; lia); unfold values; simpl; lia.
      + intros Hw HS. apply IH2; [|exact (Forall_inv_tail HS)].
        assert (Ho := Forall_inv HS). unfold op_safe in Ho.
        destruct op; simpl window_step; auto; try (rewrite values_app; apply Forall_app; split; auto; unfold values; simpl; rewrite ?app_nil_r; auto); constructor.
  Qed.

  (** No fault for safe values. *)
  Lemma step_ok o w r op : WInv o w r -> op_typed op -> Forall val_safe (values w) ->
    Z.of_nat (length (values w)) < two64 -> exists r', r_step ne r op = Ok r'.
  Proof.
    intros W HT HS HL. destruct op; simpl; eauto.
    - destruct (reduce_ok ne Hne o w r W) as (r1 & E1 & _). eauto.
    - pose proof (detach_spec o w _ (clone_inv o w r W)) as D.
      destruct (avg_cast_safe (values w) HS HL) as [z Ez]. rewrite Ez in D.
      destruct D as (a & r1 & E & _). unfold r_get_reduced. rewrite E. simpl. eauto.
    - pose proof (detach_spec o w _ W) as D.
      destruct (avg_cast_safe (values w) HS HL) as [z Ez]. rewrite Ez in D.
      destruct D as (a & r1 & E & _). rewrite E. simpl. eauto.
  Qed.

  Lemma run_ok_gen o ops : forall w r, WInv o w r -> Forall op_typed ops -> Forall op_safe ops ->
    Forall val_safe (values w) -> Z.of_nat (length (values w) + length (values ops)) < two64 ->
    exists r', r_run ne r ops = Ok r'.
  Proof.
    induction ops as [|op ops IH]; intros w r W HT HS Hw HL; simpl; eauto.
    destruct (step_ok o w r op W (Forall_inv HT) Hw) as [r1 E1]; [lia|].
    rewrite E1. cbn [bind]. 
    pose proof (window_values_sub [op] w) as [V1 V2]. simpl in V1, V2.
    apply (IH (window_step w op)).
    - eapply step_inv; eauto. exact (Forall_inv HT).
    - exact (Forall_inv_tail HT).
    - exact (Forall_inv_tail HS).
    - apply V2; auto. constructor; auto. exact (Forall_inv HS).
    - change (values (op :: ops)) with (op_values op ++ values ops) in HL. rewrite app_length in HL.
      rewrite app_nil_r in V1. lia.
  Qed.

  Lemma run_ok o ops : Forall op_typed ops -> Forall op_safe ops ->
    Z.of_nat (length (values ops)) < two64 -> exists r, r_run ne (reducer_new o) ops = Ok r.
  Proof. intros. eapply (run_ok_gen o ops [] (reducer_new o)); eauto using WInv_new. constructor. Qed.

  (** No history ever throws; the only undefined behaviour is the cast of the average. *)
  Lemma run_no_exn o ops : Forall op_typed ops -> r_run ne (reducer_new o) ops <> Exn.
  Proof.
    intros HT. cut (forall w r, WInv o w r -> r_run ne r ops <> Exn); [intros H; apply (H []), WInv_new|].
    induction ops as [|op ops IH]; intros w r W; simpl; [discriminate|].
    destruct (r_step ne r op) as [r1| |] eqn:E1; simpl; try discriminate.
    - apply (IH (Forall_inv_tail HT) (window_step w op)). eapply step_inv; eauto. exact (Forall_inv HT).
    - exfalso. destruct op; simpl in E1; try discriminate.
      + destruct (reduce_ok ne Hne o w r W) as (r2 & E2 & _). congruence.
      + unfold r_get_reduced in E1. pose proof (detach_spec o w _ (clone_inv o w r W)) as D.
        destruct (f64_to_i64 (fst (avg_of (values w)))) eqn:Ez.
        * destruct D as (a' & r2 & Ed & _). rewrite Ed in E1. discriminate.
        * destruct w; [discriminate Ez|]. rewrite D in E1 by discriminate. discriminate.
        * auto.
      + pose proof (detach_spec o w _ W) as D.
        destruct (f64_to_i64 (fst (avg_of (values w)))) eqn:Ez.
        * destruct D as (a' & r2 & Ed & _). rewrite Ed in E1. discriminate.
        * destruct w; [discriminate Ez|]. rewrite D in E1 by discriminate. discriminate.
        * auto.
  Qed.
End NE2.
