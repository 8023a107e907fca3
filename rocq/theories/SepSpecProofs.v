(** Facts about the grouping specification itself. *)
From Coq Require Import ZArith List Bool Permutation Lia Arith Sorted.
From Verif Require Import Base SortFacts ModelTypes ModelReducer SpecReducer ModelSeparator SpecSeparator SepProofs.
Import ListNotations.
Local Open Scope Z_scope.

Fixpoint spec_run (step : Z) (res : resolution) (ops : list sop) (sp : spec) : list spout * spec :=
  match ops with
  | [] => ([], sp)
  | op :: t =>
      let '(o, sp1) := spec_call step res op sp in
      let '(os, sp2) := spec_run step res t sp1 in (o :: os, sp2)
  end.

Lemma ops_in_app l0 step w a b : ops_in l0 step w (a ++ b) = ops_in l0 step w a ++ ops_in l0 step w b.
Proof. unfold ops_in. now rewrite filter_app, map_app. Qed.

Definition sorted_keys (l : list group) : Prop := StronglySorted Z.lt (map fst l).

Lemma sorted_keys_snoc l q : sorted_keys l -> Forall (fun p => fst p < fst q) l -> sorted_keys (l ++ [q]).
Proof.
  unfold sorted_keys. rewrite map_app. simpl. induction l as [|p l IH]; simpl; intros H F.
  - constructor; constructor.
  - inversion H; subst. constructor.
    + apply IH; auto. exact (Forall_inv_tail F).
    + apply Forall_app. split; auto. constructor; auto. exact (Forall_inv F).
Qed.

(** Invariant of histories without force_pop and clear. *)
Record GInv (l0 step : Z) (sp : spec) (closed : list group) (acc : list (Z * rop)) (hs ps : list group) : Prop := mkG {
  g_cur : exists k, 0 <= k /\ sp_cur sp = l0 + k * step;
  g_acc : Forall (fun p => window_of l0 step (fst p) <= sp_cur sp) acc;
  g_open : sp_open sp = ops_in l0 step (sp_cur sp) acc;
  g_sorted : sorted_keys closed;
  g_lt : Forall (fun q => fst q < sp_cur sp) closed;
  g_iff : forall w g, In (w, g) closed <-> g = ops_in l0 step w acc /\ g <> [] /\ w < sp_cur sp;
  g_perm : Permutation closed (hs ++ ps ++ sp_queue sp);
  g_hs : sorted_keys hs;
  g_ps : sorted_keys (ps ++ sp_queue sp)
}.

Lemma GInv_init l0 step q : q = [] -> GInv l0 step (mk_spec l0 [] q) [] [] [] [].
Proof.
  intros ->. constructor; simpl; auto; try constructor.
  - exists 0. lia.
  - intros [].
  - intros (-> & H & _). now contradict H.
Qed.

Lemma window_cur l0 step sp t : 0 < step -> (exists k, 0 <= k /\ sp_cur sp = l0 + k * step) ->
  window_of (sp_cur sp) step t = window_of l0 step t.
Proof. intros Hs (k & _ & ->). now apply window_of_shift. Qed.

Lemma lt_perm (P : group -> Prop) a b : Permutation a b -> Forall P a -> Forall P b.
Proof. intros H F. rewrite Forall_forall in *. intros x Hx. apply F. eapply Permutation_in; [symmetry; exact H|auto]. Qed.

(** Advancing the time. *)
Lemma GInv_advance l0 step t h sp closed acc hs ps : 0 < step -> GInv l0 step sp closed acc hs ps ->
  let '(out, sp1) := spec_deliver h (spec_advance step t sp) in
  (exists closed', GInv l0 step sp1 closed' acc (hs ++ out) ps) /\
  sp_cur sp1 = Z.max (sp_cur sp) (window_of l0 step t) /\ t < sp_cur sp1 + step.
Proof.
  intros Hs G. assert (G' := G). destruct G' as [Gc Ga Go Gs Gl Gi Gp Gh Gq].
  unfold spec_advance. destruct (Z.ltb_spec t (sp_cur sp + step)) as [L|L].
  - assert (WM : Z.max (sp_cur sp) (window_of l0 step t) = sp_cur sp).
    { rewrite <- (window_cur l0 step sp t) by auto. pose proof (window_of_spec (sp_cur sp) step t Hs).
      destruct (window_of_congr (sp_cur sp) step t) as [k Ek]. assert (k <= 0) by nia. nia. }
    unfold spec_deliver. destruct h; simpl; rewrite app_nil_r.
    + split; [exists closed; auto|]. split; auto.
    + rewrite app_nil_r. destruct sp; simpl in *. split; [exists closed; auto|]. auto.
  - assert (WC := window_cur l0 step sp t Hs Gc).
    assert (WL : sp_cur sp + step <= window_of l0 step t <= t /\ t < window_of l0 step t + step).
    { rewrite <- WC. replace (window_of (sp_cur sp) step t) with (window_of (sp_cur sp + 1 * step) step t)
        by (now apply window_of_shift). rewrite Z.mul_1_l. apply window_of_le; lia. }
    set (c := match sp_open sp with [] => [] | g => [(sp_cur sp, g)] end).
    set (sp1 := mk_spec (window_of (sp_cur sp) step t) [] (sp_queue sp)).
    assert (E1 : sp_cur sp1 = window_of l0 step t) by exact WC.
    assert (HK : exists k, 0 <= k /\ window_of l0 step t = l0 + k * step).
    { destruct (window_of_congr l0 step t) as [k Ek]. exists k. split; auto.
      destruct Gc as (k0 & K0 & Ek0). rewrite Ek, Ek0 in WL. nia. }
    assert (NONE : forall w, sp_cur sp < w -> ops_in l0 step w acc = []).
    { intros w Hw. unfold ops_in. replace (filter _ acc) with (@nil (Z * rop)); auto.
      clear - Ga Hw. induction Ga; simpl; auto. rewrite (proj2 (Z.eqb_neq _ _)) by lia. auto. }
    assert (FC : Forall (fun q => fst q < sp_cur sp1) (closed ++ c)).
    { rewrite E1. apply Forall_app. split.
      - eapply Forall_impl; [|exact Gl]. simpl. intros; lia.
      - unfold c. destruct (sp_open sp); constructor; auto. simpl. lia. }
    assert (SC : sorted_keys (closed ++ c)).
    { unfold c. destruct (sp_open sp); [now rewrite app_nil_r|]. now apply sorted_keys_snoc. }
    assert (IFF : forall w g, In (w, g) (closed ++ c) <-> g = ops_in l0 step w acc /\ g <> [] /\ w < window_of l0 step t).
    { intros w g. rewrite in_app_iff, Gi. split.
      - intros [(A & B & C)|H]; [repeat split; auto; lia|].
        unfold c in H. destruct (sp_open sp) as [|x o] eqn:Eo; [destruct H|].
        destruct H as [H|[]]. injection H as <- <-. repeat split; auto; [discriminate|lia].
      - intros (A & B & C). destruct (Z.lt_trichotomy w (sp_cur sp)) as [H|[H|H]].
        + left. auto.
        + right. subst w. rewrite <- Go in A. unfold c. subst g. destruct (sp_open sp); [congruence|]. now left.
        + rewrite NONE in A by auto. congruence. }
    assert (GC : forall q, sp_cur q = window_of l0 step t -> sp_open q = [] ->
       Permutation (closed ++ c) (hs ++ (if h then c else []) ++ ps ++ sp_queue q) ->
       sorted_keys (hs ++ (if h then c else [])) -> sorted_keys (ps ++ sp_queue q) ->
       GInv l0 step q (closed ++ c) acc (hs ++ (if h then c else [])) ps).
    { intros q Q1 Q2 Q3 Q4 Q5. constructor; rewrite ?Q1, ?Q2; auto.
      - eapply Forall_impl; [|exact Ga]. simpl. intros; lia.
      - symmetry. apply NONE. lia.
      - rewrite <- E1. auto.
      - rewrite <- app_assoc. auto. }
    assert (MX : window_of l0 step t = Z.max (sp_cur sp) (window_of l0 step t)) by lia.
    assert (LT : forall l, (exists m, Permutation closed (l ++ m)) -> sorted_keys l -> sorted_keys (l ++ c)).
    { intros l (m & Pm) Sl. unfold c. destruct (sp_open sp); [now rewrite app_nil_r|]. apply sorted_keys_snoc; auto.
      simpl. apply (lt_perm _ _ _ Pm) in Gl. apply Forall_app in Gl. apply Gl. }
    unfold spec_deliver. destruct h; cbv iota in GC.
    + fold c. split; [|rewrite E1; split; [exact MX|lia]].
      exists (closed ++ c). apply GC; auto.
      * simpl. rewrite Gp. rewrite <- !app_assoc. apply Permutation_app_head.
        rewrite !app_assoc. rewrite Permutation_app_comm. rewrite app_assoc. reflexivity.
      * apply LT; eauto.
    + fold c. simpl. rewrite WC. split; [|split; [exact MX|lia]].
      exists (closed ++ c). apply GC; simpl; auto.
      * rewrite Gp. rewrite <- !app_assoc. reflexivity.
      * rewrite app_nil_r. auto.
      * rewrite app_assoc. apply LT; auto. exists hs. rewrite Gp. apply Permutation_app_comm.
Qed.

Lemma GInv_put l0 step t h op sp closed acc hs ps : 0 < step -> GInv l0 step sp closed acc hs ps ->
  let '(so, sp1) := spec_put step t t h op sp in
  exists closed',
    GInv l0 step sp1 closed' (acc ++ match po_bool so with Some true => [(t, op)] | _ => [] end) (hs ++ po_handler so) ps /\
    sp_cur sp1 = Z.max (sp_cur sp) (window_of l0 step t) /\ po_ptr so = None /\
    (po_bool so = Some true /\ sp_cur sp <= t \/ po_bool so = Some false /\ t < sp_cur sp).
Proof.
  intros Hs G. unfold spec_put. pose proof (GInv_advance l0 step t h sp closed acc hs ps Hs G) as A.
  destruct (spec_deliver h (spec_advance step t sp)) as [out sp1].
  destruct A as ((closed' & A) & M & L).
  destruct (Z.ltb_spec t (sp_cur sp1)) as [LT|LT].
  - exists closed'. simpl. rewrite app_nil_r. split; auto. split; auto. split; auto. right. split; auto.
    pose proof (window_of_spec l0 step t Hs). lia.
  - exists closed'. simpl. split.
    2: { split; auto. split; auto. left. split; auto. lia. }
    destruct A as [Gc Ga Go Gs Gl Gi Gp Gh Gq].
    assert (WT : window_of l0 step t = sp_cur sp1).
    { rewrite <- (window_cur l0 step sp1 t) by auto. apply window_of_fix; lia. }
    constructor; simpl; auto.
    + apply Forall_app. split; auto. constructor; auto. simpl. lia.
    + rewrite ops_in_app, Go. f_equal. unfold ops_in. simpl. rewrite WT, Z.eqb_refl. reflexivity.
    + intros w g. rewrite Gi, ops_in_app.
      assert (N : w < sp_cur sp1 -> ops_in l0 step w [(t, op)] = []).
      { intros H. unfold ops_in. simpl. rewrite WT, (proj2 (Z.eqb_neq _ _)) by lia. auto. }
      split; intros (A & B & C); repeat split; auto; [rewrite N, app_nil_r by auto|rewrite N, app_nil_r in A by auto]; auto.
Qed.

Lemma accepted_cons step res op ops b bs : accepted step res (op :: ops) (b :: bs) =
  match op, b with
  | SoAdd x c1 _, Some true | SoPush x c1 _, Some true => [(acc_time step res c1 (sm_ts x), sm_op x)]
  | _, _ => []
  end ++ accepted step res ops bs.
Proof. reflexivity. Qed.

Lemma GInv_run l0 step res ops : 0 < step -> Forall regular ops -> Forall (coherent step res) ops ->
  forall sp closed acc hs ps, GInv l0 step sp closed acc hs ps ->
  let '(os, sp1) := spec_run step res ops sp in
  exists closed', GInv l0 step sp1 closed' (acc ++ accepted step res ops (map po_bool os))
    (hs ++ flat_map po_handler os) (ps ++ popped ops (map po_ptr os)) /\
    sp_cur sp1 = fold_left Z.max (map (window_of l0 step) (flat_map (shown_time step res) ops)) (sp_cur sp).
Proof.
  intros Hs. induction ops as [|op ops IH]; intros HR HC sp closed acc hs ps G.
  - simpl. rewrite !app_nil_r. eauto.
  - assert (HR1 := Forall_inv HR). assert (HC1 := Forall_inv HC).
    specialize (IH (Forall_inv_tail HR) (Forall_inv_tail HC)).
    assert (STEP : let '(so, sp1) := spec_call step res op sp in
      exists closed', GInv l0 step sp1 closed' (acc ++ match op, po_bool so with
          | SoAdd x c1 _, Some true | SoPush x c1 _, Some true => [(acc_time step res c1 (sm_ts x), sm_op x)]
          | _, _ => [] end) (hs ++ po_handler so)
          (ps ++ match op, po_ptr so with SoPop, Some a | SoForcePop, Some a => [a] | _, _ => [] end) /\
      sp_cur sp1 = fold_left Z.max (map (window_of l0 step) (shown_time step res op)) (sp_cur sp)).
    { destruct op; simpl in HR1, HC1; simpl spec_call; try contradiction.
      - rewrite HC1. pose proof (GInv_put l0 step (acc_time step res c1 (sm_ts x)) false (sm_op x) sp closed acc hs ps Hs G) as P.
        destruct (spec_put _ _ _ _ _ _) as [so sp1]. destruct P as (cl & P1 & P2 & P3 & _).
        exists cl. rewrite app_nil_r. split; auto. simpl. rewrite HC1. auto.
      - rewrite HC1. pose proof (GInv_put l0 step (acc_time step res c1 (sm_ts x)) true (sm_op x) sp closed acc hs ps Hs G) as P.
        destruct (spec_put _ _ _ _ _ _) as [so sp1]. destruct P as (cl & P1 & P2 & P3 & _).
        exists cl. rewrite app_nil_r. split; auto. simpl. rewrite HC1. auto.
      - pose proof (GInv_advance l0 step (acc_time step res c ts) h sp closed acc hs ps Hs G) as P.
        destruct (spec_deliver h _) as [out sp1]. destruct P as ((cl & P1) & P2 & _). simpl.
        exists cl. rewrite !app_nil_r. auto.
      - destruct (sp_queue sp) as [|g q] eqn:Eq.
        + simpl. rewrite !app_nil_r. eauto.
        + simpl. exists closed. rewrite !app_nil_r. split; auto.
          destruct G as [Gc Ga Go Gs Gl Gi Gp Gh Gq]. rewrite Eq in *. constructor; simpl; auto.
          * rewrite <- app_assoc. auto.
          * rewrite <- app_assoc. auto.
      - simpl. rewrite !app_nil_r. eauto. }
    simpl spec_run. destruct (spec_call step res op sp) as [so sp1] eqn:Ec. simpl in STEP.
    destruct STEP as (cl & G1 & M1).
    specialize (IH _ _ _ _ _ G1). destruct (spec_run step res ops sp1) as [os sp2].
    destruct IH as (cl2 & G2 & M2). exists cl2. simpl map. rewrite accepted_cons. simpl flat_map. simpl popped.
    split.
    + rewrite <- !app_assoc in G2. exact G2.
    + rewrite M2, M1. simpl. now rewrite map_app, fold_left_app.
Qed.

(** * Conservation, also with force_pop *)
Definition all_ops (l : list group) : list rop := flat_map snd l.

Lemma all_ops_app a b : all_ops (a ++ b) = all_ops a ++ all_ops b.
Proof. apply flat_map_app. Qed.

Lemma advance_cons step t h sp :
  let '(out, sp1) := spec_deliver h (spec_advance step t sp) in
  Permutation (all_ops out ++ all_ops (sp_queue sp1) ++ sp_open sp1) (all_ops (sp_queue sp) ++ sp_open sp).
Proof.
  unfold spec_advance. destruct (t <? sp_cur sp + step).
  - unfold spec_deliver. destruct h; simpl; auto. rewrite app_nil_r. auto.
  - unfold spec_deliver. destruct h, (sp_open sp); simpl; rewrite ?all_ops_app; simpl; rewrite ?app_nil_r; auto.
    apply Permutation_app_comm with (l := _ :: _).
Qed.

Lemma perm_mid4 {A} (a b c d e : list A) : Permutation ((a ++ c) ++ (b ++ d) ++ e) ((a ++ b) ++ c ++ d ++ e).
Proof.
  rewrite <- !app_assoc. apply Permutation_app_head. rewrite !app_assoc. do 2 apply Permutation_app_tail.
  apply Permutation_app_comm.
Qed.

Lemma cons_run step res ops : Forall not_clear ops -> forall sp,
  let '(os, sp1) := spec_run step res ops sp in
  Permutation (all_ops (flat_map po_handler os) ++ all_ops (popped ops (map po_ptr os)) ++
               all_ops (sp_queue sp1) ++ sp_open sp1)
    ((all_ops (sp_queue sp) ++ sp_open sp) ++ map snd (accepted step res ops (map po_bool os))).
Proof.
  induction ops as [|op ops IH]; intros HN sp.
  - simpl. rewrite app_nil_r. reflexivity.
  - assert (H1 := Forall_inv HN). specialize (IH (Forall_inv_tail HN)).
    assert (PUT : forall t1 t2 h x, let '(so, sp1) := spec_put step t1 t2 h x sp in
       po_ptr so = None /\
       Permutation (all_ops (po_handler so) ++ all_ops (sp_queue sp1) ++ sp_open sp1)
         ((all_ops (sp_queue sp) ++ sp_open sp) ++ match po_bool so with Some true => [x] | _ => [] end)).
    { intros t1 t2 h x. unfold spec_put. pose proof (advance_cons step t1 h sp) as A.
      destruct (spec_deliver h (spec_advance step t1 sp)) as [out sp1]. destruct (t2 <? sp_cur sp1); simpl; split; auto.
      - rewrite app_nil_r. auto.
      - rewrite <- A. rewrite <- !app_assoc. reflexivity. }
    assert (STEP : let '(so, sp1) := spec_call step res op sp in
      Permutation (all_ops (po_handler so) ++
         all_ops (match op, po_ptr so with SoPop, Some a | SoForcePop, Some a => [a] | _, _ => [] end) ++
         all_ops (sp_queue sp1) ++ sp_open sp1)
       ((all_ops (sp_queue sp) ++ sp_open sp) ++ map snd (match op, po_bool so with
          | SoAdd x c1 _, Some true | SoPush x c1 _, Some true => [(acc_time step res c1 (sm_ts x), sm_op x)]
          | _, _ => [] end))).
    { destruct op; simpl in H1; simpl spec_call; try contradiction.
      - specialize (PUT (adv_time step res c1 c2 (sm_ts x)) (acc_time step res c1 (sm_ts x)) false (sm_op x)).
        destruct (spec_put _ _ _ _ _ _) as [so sp1]. destruct PUT as [_ P]. simpl.
        destruct (po_bool so) as [[|]|]; auto.
      - specialize (PUT (adv_time step res c1 c2 (sm_ts x)) (acc_time step res c1 (sm_ts x)) true (sm_op x)).
        destruct (spec_put _ _ _ _ _ _) as [so sp1]. destruct PUT as [_ P]. simpl.
        destruct (po_bool so) as [[|]|]; auto.
      - pose proof (advance_cons step (acc_time step res c ts) h sp) as A.
        destruct (spec_deliver h _) as [out sp1]. simpl. rewrite app_nil_r. auto.
      - destruct (sp_queue sp) as [|g q] eqn:Eq; simpl; rewrite ?app_nil_r; auto.
        + rewrite Eq. auto.
        + rewrite <- !app_assoc. auto.
      - destruct (sp_queue sp) as [|g q] eqn:Eq; simpl; rewrite ?app_nil_r.
        + destruct (sp_open sp); simpl; rewrite ?app_nil_r; auto.
        + rewrite <- !app_assoc. auto.
      - simpl. rewrite app_nil_r. auto. }
    simpl spec_run. destruct (spec_call step res op sp) as [so sp1]. specialize (IH sp1).
    destruct (spec_run step res ops sp1) as [os sp2].
    change (map po_bool (so :: os)) with (po_bool so :: map po_bool os).
    change (map po_ptr (so :: os)) with (po_ptr so :: map po_ptr os). rewrite accepted_cons, map_app.
    simpl flat_map. simpl popped. rewrite !all_ops_app.
    set (P1 := all_ops (match op, po_ptr so with SoPop, Some a | SoForcePop, Some a => [a] | _, _ => [] end)) in *.
    set (A1 := map snd (match op, po_bool so with
          | SoAdd x c1 _, Some true | SoPush x c1 _, Some true => [(acc_time step res c1 (sm_ts x), sm_op x)]
          | _, _ => [] end)) in *.
    rewrite (app_assoc (all_ops (sp_queue sp) ++ sp_open sp)), <- STEP.
    transitivity ((all_ops (po_handler so) ++ P1) ++
      (all_ops (flat_map po_handler os) ++ all_ops (popped ops (map po_ptr os)) ++ all_ops (sp_queue sp2) ++ sp_open sp2)).
    + apply perm_mid4.
    + rewrite IH. rewrite <- !app_assoc. reflexivity.
Qed.
