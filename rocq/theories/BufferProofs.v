(** Ownership of buffers and the simulation of aggregators without shared memory. *)
From Coq Require Import ZArith List Bool Arith Lia Permutation.
From Verif Require Import Base SortFacts ListFacts ModelTypes ModelAvg ModelReducer SpecReducer ReducerProofs ModelSeparator SpecSeparator ModelAggregator SpecAggregator
  ModelBuffers SpecBuffers.
Import ListNotations.
Local Open Scope Z_scope.

Definition sim {A B} (Q : A -> B -> Prop) (x : outcome A) (y : outcome B) : Prop :=
  match x, y with Ok a, Ok b => Q a b | Ub, Ub | Exn, Exn => True | _, _ => False end.
Lemma sim_bind {A A' B B'} (Q : A -> B -> Prop) (Q' : A' -> B' -> Prop) x y k k' :
  sim Q x y -> (forall a b, Q a b -> sim Q' (k a) (k' b)) -> sim Q' (bind x k) (bind y k').
Proof. destruct x, y; cbn; intros H K; try contradiction; auto. Qed.
Lemma sim_eq {A} (x : outcome A) : sim eq x x.
Proof. destruct x; cbn; auto. Qed.
Lemma sim_weaken {A B} (Q Q' : A -> B -> Prop) x y : sim Q x y -> (forall a b, Q a b -> Q' a b) -> sim Q' x y.
Proof. destruct x, y; cbn; auto. Qed.

(** ** The heap *)
Lemma get_ok b m v : nth_error (m_heap m) b = Some (Some v) -> h_get b m = Ok v.
Proof. unfold h_get. intros ->. reflexivity. Qed.
Definition frame (O : list nat) (m m' : mem) : Prop :=
  m_item m' = m_item m /\ m_max m' = m_max m /\ forall b, In b O -> nth_error (m_heap m') b = nth_error (m_heap m) b.
Lemma frame_refl O m : frame O m m. Proof. repeat split. Qed.
Lemma frame_trans O m1 m2 m3 : frame O m1 m2 -> frame O m2 m3 -> frame O m1 m3.
Proof. intros (A & B & C) (A' & B' & C'). split; [congruence|]. split; [congruence|]. intros b I. rewrite C' by exact I. apply C, I. Qed.
Lemma frame_incl O O' m m' : frame O m m' -> (forall b, In b O' -> In b O) -> frame O' m m'.
Proof. intros (A & B & C) I. repeat split; auto. Qed.

(** [O]: the vectors outside the pool. *)
Record good (bound : nat) (O : list nat) (m : mem) : Prop := {
  gd_nodup : NoDup (O ++ m_pool m);
  gd_live : forall b, live b m <-> In b (O ++ m_pool m);
  gd_pool : forall b, In b (m_pool m) -> exists c, nth_error (m_heap m) b = Some (Some (mk_vec [] c)) /\ (m_item m <= c <= 2 * m_item m)%nat;
  gd_max : (length (m_pool m) <= m_max m)%nat;
  gd_item : (2 * m_item m <= bound)%nat }.
Lemma good_perm bd O O' m : good bd O m -> Permutation O O' -> good bd O' m.
Proof.
  intros [A B C D E] P. constructor; auto.
  - eapply Permutation_NoDup; [|exact A]. apply Permutation_app_tail, P.
  - intros b. rewrite B. split; intros I; (eapply Permutation_in; [|exact I]); apply Permutation_app_tail; [exact P|symmetry; exact P].
Qed.
Lemma nth_some_lt {A} (l : list A) i x : nth_error l i = Some x -> (i < length l)%nat.
Proof. intros H. apply nth_error_Some. congruence. Qed.

Lemma put_good bd O m b v : good bd O m -> In b O -> exists m', h_put b v m = Ok m' /\ good bd O m' /\ m_pool m' = m_pool m /\
  m_item m' = m_item m /\ m_max m' = m_max m /\ nth_error (m_heap m') b = Some (Some v) /\ forall b', b' <> b -> nth_error (m_heap m') b' = nth_error (m_heap m) b'.
Proof.
  intros [A B C D E] I. assert (L : live b m) by (apply B, in_app_iff; auto). destruct L as [w W]. unfold h_put. rewrite (get_ok _ _ _ W). cbn [bind].
  eexists. split; [reflexivity|]. pose proof (nth_some_lt _ _ _ W) as LT.
  assert (NE : forall b', b' <> b -> nth_error (set_nth b (Some v) (m_heap m)) b' = nth_error (m_heap m) b') by (intros; apply nth_error_set_nth_neq; congruence).
  assert (EQ : nth_error (set_nth b (Some v) (m_heap m)) b = Some (Some v)) by (apply nth_error_set_nth_eq; exact LT).
  split; [|cbn; auto 10]. constructor; cbn; auto.
  - intros b'. rewrite <- B. unfold live. cbn. destruct (Nat.eq_dec b' b) as [->|N]; [rewrite EQ; split; intros _; eauto|rewrite NE by exact N; reflexivity].
  - intros b' I'. rewrite NE; [apply C, I'|]. intros ->. eapply NoDup_remove_2; [|apply in_app_iff; left; exact I].
    apply in_split in I'. destruct I' as (p1 & p2 & P). rewrite P in A. exfalso.
    rewrite app_assoc in A. apply NoDup_remove_2 in A. apply A. rewrite !in_app_iff. auto.
    Unshelve. all: exact [].
Qed.
Lemma delete_good bd O m b : good bd (b :: O) m -> exists m', h_delete b m = Ok m' /\ good bd O m' /\ frame O m m' /\ m_pool m' = m_pool m.
Proof.
  intros [A B C D E]. assert (L : live b m) by (apply B; left; reflexivity). destruct L as [w W]. unfold h_delete. rewrite (get_ok _ _ _ W). cbn [bind].
  eexists. split; [reflexivity|]. pose proof (nth_some_lt _ _ _ W) as LT. inversion A as [|? ? NI ND]; subst.
  assert (NE : forall b', b' <> b -> nth_error (set_nth b None (m_heap m)) b' = nth_error (m_heap m) b') by (intros; apply nth_error_set_nth_neq; congruence).
  split; [|split; [|reflexivity]].
  - constructor; cbn; auto.
    + intros b'. destruct (Nat.eq_dec b' b) as [->|N].
      * split; [|contradiction]. unfold live. cbn. rewrite nth_error_set_nth_eq by exact LT. intros [v V]. discriminate.
      * specialize (B b'). unfold live in *. cbn in *. rewrite NE by exact N. rewrite B. split; [intros [->|H]; [congruence|exact H]|auto].
    + intros b' I. rewrite NE; [apply C, I|]. intros ->. apply NI, in_app_iff. auto.
  - repeat split. intros b' I. cbn. apply NE. intros ->. apply NI, in_app_iff. auto.
Qed.
Lemma new_good bd O m v b m' : good bd O m -> h_new v m = (b, m') -> good bd (b :: O) m' /\ frame O m m' /\ nth_error (m_heap m') b = Some (Some v) /\ m_pool m' = m_pool m.
Proof.
  intros [A B C D E] H. injection H as <- <-.
  assert (OLD : forall b', live b' m -> nth_error (m_heap m ++ [Some v]) b' = nth_error (m_heap m) b') by (intros b' [w W]; apply nth_error_app1; eapply nth_some_lt; exact W).
  assert (NEW : nth_error (m_heap m ++ [Some v]) (length (m_heap m)) = Some (Some v)) by (rewrite nth_error_app2, Nat.sub_diag by lia; reflexivity).
  assert (NI : ~ In (length (m_heap m)) (O ++ m_pool m)) by (intros I; apply B in I; destruct I as [w W]; apply nth_some_lt in W; lia).
  repeat split; cbn; auto.
  - constructor; assumption.
  - intros [w W]. cbn in W. destruct (Nat.eq_dec (length (m_heap m)) b) as [->|N]; [auto|]. right. apply B. exists w.
    apply nth_some_lt in W as LT. rewrite app_length in LT. cbn in LT. rewrite nth_error_app1 in W by lia. exact W.
  - intros [<-|I]; [exists v; exact NEW|]. apply B in I. pose proof (OLD _ I) as OL. destruct I as [w W]. exists w. cbn. rewrite OL. exact W.
  - intros b I. rewrite OLD; [apply C, I|]. apply B, in_app_iff. auto.
  - intros b I. apply OLD. apply B, in_app_iff. auto.
Qed.
Lemma create_good bd O m b m' : good bd O m -> a_create m = (b, m') -> good bd (b :: O) m' /\ frame O m m' /\
  exists c, nth_error (m_heap m') b = Some (Some (mk_vec [] c)) /\ (m_item m <= c <= 2 * m_item m)%nat.
Proof.
  intros G H. unfold a_create in H. destruct (m_pool m) as [|x r] eqn:P.
  - destruct (new_good _ _ _ _ _ _ G H) as (G1 & F1 & N & _). split; [exact G1|]. split; [exact F1|].
    assert (X : v_clear (v_resize (m_item m) (mk_vec [] 0)) = mk_vec [] (m_item m)).
    { unfold v_resize, v_clear. cbn [v_cap v_data length]. f_equal. destruct (Nat.leb_spec (m_item m) 0); lia. }
    rewrite X in N. eexists. split; [exact N|lia].
  - injection H as <- <-. destruct G as [A B C D E]. rewrite P in *. split; [|split; [repeat split|]].
    + constructor; cbn; auto.
      * change (x :: O ++ r) with ((x :: O) ++ r). eapply Permutation_NoDup; [|exact A]. symmetry. apply Permutation_middle.
      * intros b. specialize (B b). unfold live in *. cbn. rewrite B, !in_app_iff. cbn. tauto.
      * intros b I. apply C. right. exact I.
      * cbn in D. lia.
    + apply C. left. reflexivity.
Qed.
Lemma free_good bd O m b x c : good bd (b :: O) m -> nth_error (m_heap m) b = Some (Some (mk_vec x c)) -> (length x <= c)%nat ->
  exists m', a_free b m = Ok m' /\ good bd O m' /\ frame O m m'.
Proof.
  intros G H LC. unfold a_free. destruct (Nat.eqb_spec (length (m_pool m)) (m_max m)) as [FU|FU].
  { destruct (delete_good _ _ _ _ G) as (m' & E & G' & F & _). eauto. }
  rewrite (get_ok _ _ _ H). cbn [bind].
  set (v1 := if (m_item m <? v_cap (mk_vec x c))%nat then v_shrink_to_fit (v_resize (m_item m) (mk_vec x c)) else v_resize (m_item m) (mk_vec x c)).
  destruct (put_good _ _ _ b (v_clear v1) G (or_introl eq_refl)) as (m1 & PE & G1 & P1 & I1 & M1 & N1 & O1). rewrite PE. cbn [bind]. eexists. split; [reflexivity|].
  assert (V : (m_item m <= v_cap v1 <= 2 * m_item m)%nat).
  { unfold v1. cbn [v_cap]. destruct (Nat.ltb_spec (m_item m) c).
    - unfold v_shrink_to_fit, v_resize. cbn [v_cap v_data]. rewrite app_length, firstn_length, repeat_length. lia.
    - unfold v_resize. cbn [v_cap v_data]. destruct (Nat.leb_spec (m_item m) c); lia. }
  destruct G as [A B C D E]. destruct G1 as [A1 B1 C1 D1 E1]. split.
  - constructor; cbn; auto.
    + rewrite P1. inversion A; subst. apply (Permutation_NoDup (l := (b :: O) ++ m_pool m)); [|exact A]. cbn. apply Permutation_middle.
    + intros b'. specialize (B1 b'). unfold live in *. cbn. rewrite B1, !in_app_iff. cbn. tauto.
    + intros b' [<-|I]; [exists (v_cap v1); rewrite I1; split; [exact N1|exact V]|]. apply C1, I.
    + rewrite P1, M1. lia.
  - split; [exact I1|]. split; [exact M1|]. intros b' I. cbn. apply O1. intros ->. inversion A as [|? ? NI ND]; subst. apply NI, in_app_iff. auto.
Qed.

(** Rows: contents, at least [lo] and at most [bd] places each. *)
Definition row_is (bd lo lim : nat) (m : mem) (b : nat) (x : list Z) : Prop :=
  exists c, nth_error (m_heap m) b = Some (Some (mk_vec x c)) /\ (length x <= c /\ length x <= lim /\ lo <= c <= bd)%nat.
Definition rows_are (bd lo lim : nat) (m : mem) := Forall2 (row_is bd lo lim m).
Lemma rows_frame bd lo lim O m m' rows d : rows_are bd lo lim m rows d -> frame O m m' -> (forall b, In b rows -> In b O) -> rows_are bd lo lim m' rows d.
Proof.
  intros R (_ & _ & F) I. induction R as [|b x rows d (c & H & K) R IH]; constructor.
  - exists c. split; [|exact K]. rewrite F; [exact H|]. apply I. left. reflexivity.
  - apply IH. intros b' I'. apply I. right. exact I'.
Qed.
Lemma rows_load bd lo lim m rows d : rows_are bd lo lim m rows d -> h_load rows m = Ok d.
Proof. induction 1 as [|b x rows d (c & H & K) R IH]; cbn; [reflexivity|]. rewrite (get_ok _ _ _ H). cbn. rewrite IH. reflexivity. Qed.
Lemma distinct_nodup l : NoDup l -> distinct l = true.
Proof.
  induction 1 as [|x l N D IH]; cbn; [reflexivity|]. rewrite IH, andb_true_r, negb_true_iff. apply not_true_is_false. intros E. apply existsb_exists in E.
  destruct E as (y & I & E). apply Nat.eqb_eq in E. subst. contradiction.
Qed.
Lemma NoDup_app_l {A} (l m : list A) : NoDup (l ++ m) -> NoDup l.
Proof. induction l as [|x l IH]; intros H; [constructor|]. inversion H; subst. constructor; [|auto]. intros X. apply H2, in_app_iff. auto. Qed.
Lemma Forall2_len {A B} (R : A -> B -> Prop) l l' : Forall2 R l l' -> length l = length l'.
Proof. induction 1; cbn; congruence. Qed.
Lemma last_row_snoc l x : last_row (l ++ [x]) = Some x.
Proof. induction l as [|y l IH]; [reflexivity|]. cbn. rewrite IH. destruct l; reflexivity. Qed.

Section Sim.
  Variable bd : nat.
  Definition lim (p : pred) : nat := o_limit (r_opt (pr_core p)).
  (** The reducer [p] in memory [m] is the reducer [r]. *)
  Definition lo (k : bool) (p : pred) : nat := if k then lim p else 0%nat.
  Definition red_is (k : bool) (m : mem) (p : pred) (r : reducer) : Prop :=
    exists d, rows_are bd (lo k p) (lim p) m (pr_rows p) d /\ r = set_data d (pr_core p) /\ (lim p <= bd)%nat /\ (length (pr_rows p) <= o_levels (r_opt (pr_core p)))%nat.
  Lemma red_frame k O m m' p r : red_is k m p r -> frame O m m' -> (forall b, In b (pr_rows p) -> In b O) -> red_is k m' p r.
  Proof. intros (d & R & E & L) F I. exists d. split; [eapply rows_frame; eauto|]. auto. Qed.

  Lemma rows_put lw l m m' b rows d : rows_are bd lw l m rows d -> ~ In b rows -> (forall b', b' <> b -> nth_error (m_heap m') b' = nth_error (m_heap m) b') ->
    rows_are bd lw l m' rows d.
  Proof.
    intros R NI O. induction R as [|b0 x rows d (c & H & K) R IH]; constructor.
    - exists c. split; [|exact K]. rewrite O; [exact H|]. intros ->. apply NI. left. reflexivity.
    - apply IH. intros I. apply NI. right. exact I.
  Qed.

  (** A new row for the value [v]. *)
  Lemma new_row F m p v (d : list (list Z)) (k : nat -> mem -> outcome (pred * mem)) :
    good bd (pr_rows p ++ F) m -> rows_are bd (lim p) (lim p) m (pr_rows p) d -> (lim p <= bd)%nat -> lim p <> 0%nat ->
    exists b m', (let '(b, m1) := a_create m in x <- h_get b m1 ;; m2 <- h_put b (v_push_back v (v_reserve (lim p) x)) m1 ;; k b m2) = k b m' /\
      good bd ((pr_rows p ++ [b]) ++ F) m' /\ frame F m m' /\ rows_are bd (lim p) (lim p) m' (pr_rows p ++ [b]) (d ++ [[v]]).
  Proof.
    intros G R LB LZ. destruct (a_create m) as [b m1] eqn:C. destruct (create_good _ _ _ _ _ G C) as (G1 & F1 & c & H & IC). rewrite (get_ok _ _ _ H). cbn [bind].
    destruct (put_good _ _ _ b (v_push_back v (v_reserve (lim p) (mk_vec [] c))) G1 (or_introl eq_refl)) as (m2 & PE & G2 & _ & I2 & M2 & N2 & O2). rewrite PE. cbn [bind].
    exists b, m2. split; [reflexivity|].
    assert (NI : ~ In b (pr_rows p ++ F)). { destruct G1 as [A _ _ _ _]. cbn in A. inversion A; subst. intros I. apply H2, in_app_iff. auto. }
    split; [|split].
    - eapply good_perm; [exact G2|]. rewrite <- app_assoc. cbn. apply Permutation_middle.
    - destruct F1 as (A1 & A2 & A3). split; [congruence|]. split; [congruence|]. intros b' I. rewrite O2; [apply A3, in_app_iff; auto|]. intros ->. apply NI, in_app_iff. auto.
    - apply Forall2_app.
      + eapply rows_put with (b := b); [|intros I; apply NI, in_app_iff; auto|exact O2]. eapply rows_frame; [exact R|exact F1|]. intros b' I. apply in_app_iff. auto.
      + constructor; [|constructor]. destruct G as [_ _ _ _ GI]. unfold v_push_back, v_reserve in N2. cbn [v_data v_cap length app] in N2.
        destruct (Nat.ltb_spec 0 (Nat.max c (lim p))); [|lia]. eexists. split; [exact N2|]. cbn. destruct F1 as (I1 & _). lia.
  Qed.

  Lemma add1_sim F m p r v : good bd (pr_rows p ++ F) m -> red_is true m p r ->
    exists p' m', p_add1 v p m = Ok (p', m') /\ good bd (pr_rows p' ++ F) m' /\ frame F m m' /\ red_is true m' p' (r_add1 v r).
  Proof.
    intros G (d & R & -> & LB & LV). pose proof (Forall2_len _ _ _ R) as LEN. unfold p_add1, r_add1. cbn [set_data r_opt r_cur r_empty r_min r_max r_lossy r_total r_avgc r_avg r_data].
    set (o := r_opt (pr_core p)) in *. change (o_limit o) with (lim p).
    destruct (list_snoc (pr_rows p)) as [E|(a & l & E)].
    - rewrite E in *. inversion R; subst. cbn [last_row length orb].
      destruct ((0 =? o_levels o)%nat || (lim p =? 0)%nat)%bool eqn:C.
      + eexists _, _. split; [reflexivity|]. split; [exact G|]. split; [apply frame_refl|]. exists []. split; [constructor|]. split; [reflexivity|]. cbn. auto.
      + apply orb_false_iff in C. destruct C as [C1 C2]. apply Nat.eqb_neq in C1, C2. rewrite <- E in R, G.
        destruct (new_row F m p v [] (fun b m2 => Ok (mk_pred (mk_reducer o (r_cur (pr_core p)) (r_empty (pr_core p)) (Z.min (r_min (pr_core p)) v) (Z.max (r_max (pr_core p)) v) (r_lossy (pr_core p)) (r_total (pr_core p))
          (u64 (r_avgc (pr_core p) + 1)) (avg_step (r_avg (pr_core p)) (u64 (r_avgc (pr_core p) + 1)) v) []) [b], m2)) G R LB C2) as (b & m' & EQ & G' & F' & R').
        eexists _, _. split; [exact EQ|]. rewrite E in *. split; [exact G'|]. split; [exact F'|]. exists [[v]].
        rewrite andb_false_r. split; [exact R'|]. split; [reflexivity|]. split; [exact LB|]. cbn. fold o. lia.
    - rewrite E in *. apply Forall2_app_inv_l in R. destruct R as (da & dx & RA & RX & ->). inversion RX as [|? x ? ? RL RN]; subst. inversion RN; subst. clear RX RN.
      rewrite last_row_snoc, back_app. destruct RL as (c & H & K1 & K2 & K3). rewrite (get_ok _ _ _ H). cbn [bind v_data].
      assert (NE : match da ++ [x] with [] => true | _ :: _ => false end = false) by (destruct da; reflexivity). rewrite NE. cbn [orb negb].
      rewrite andb_true_r, upd_last_app, upd_last_app.
      assert (LENd : length (a ++ [l]) = length (da ++ [x])) by exact LEN.
      assert (NDl : ~ In l a). { destruct G as [A _ _ _ _]. rewrite <- !app_assoc in A. apply NoDup_remove_2 in A. intros I. apply A, in_app_iff. auto. }
      assert (NF : ~ In l F). { destruct G as [A _ _ _ _]. rewrite <- !app_assoc in A. apply NoDup_remove_2 in A. intros I. apply A. rewrite !in_app_iff. auto. }
      destruct (Nat.eqb_spec (length x) (lim p)) as [FU|FU].
      + rewrite <- LENd. destruct ((length (a ++ [l]) =? o_levels o)%nat || (lim p =? 0)%nat)%bool eqn:C.
        * eexists _, _. split; [reflexivity|]. split; [exact G|]. split; [apply frame_refl|]. exists (da ++ [x]). split; [|split; [reflexivity|split; [exact LB|exact LV]]].
          apply Forall2_app; [exact RA|]. constructor; [exists c; auto|constructor].
        * apply orb_false_iff in C. destruct C as [C1 C2]. apply Nat.eqb_neq in C1, C2.
          assert (ST : exists m0 x', (if rmode_eqb (r_cur (pr_core p)) Sorting then h_put l (v_assign (isort x) (mk_vec x c)) m else Ok m) = Ok m0 /\
            (if rmode_eqb (r_cur (pr_core p)) Sorting then da ++ [isort x] else da ++ [x]) = da ++ [x'] /\
            good bd (pr_rows p ++ F) m0 /\ frame F m m0 /\ rows_are bd (lim p) (lim p) m0 (pr_rows p) (da ++ [x'])).
          { rewrite E. destruct (rmode_eqb (r_cur (pr_core p)) Sorting).
            - destruct (put_good _ _ _ l (v_assign (isort x) (mk_vec x c)) G) as (m0 & PE & G0 & _ & I0 & M0 & N0 & O0); [rewrite !in_app_iff; cbn; auto|].
              exists m0, (isort x). split; [exact PE|]. split; [reflexivity|]. split; [exact G0|]. split; [split; [exact I0|split; [exact M0|]]; intros b I; apply O0; intros ->; contradiction|].
              apply Forall2_app; [eapply rows_put with (b := l); eauto|]. constructor; [|constructor]. exists c. split; [exact N0|].
              rewrite <- (Permutation_length (isort_perm x)). auto.
            - exists m, x. split; [reflexivity|]. split; [reflexivity|]. split; [exact G|]. split; [apply frame_refl|]. apply Forall2_app; [exact RA|]. constructor; [exists c; auto|constructor]. }
          destruct ST as (m0 & x' & -> & -> & G0 & F0 & R0). cbn [bind].
          destruct (new_row F m0 p v (da ++ [x']) (fun b m2 => Ok (mk_pred (mk_reducer o (r_cur (pr_core p)) (r_empty (pr_core p)) (Z.min (r_min (pr_core p)) v) (Z.max (r_max (pr_core p)) v) (r_lossy (pr_core p)) (r_total (pr_core p))
            (u64 (r_avgc (pr_core p) + 1)) (avg_step (r_avg (pr_core p)) (u64 (r_avgc (pr_core p) + 1)) v) []) (pr_rows p ++ [b]), m2)) G0 R0 LB C2) as (b & m' & EQ & G' & F' & R').
          rewrite <- E. eexists _, _. split; [exact EQ|]. split; [exact G'|]. split; [eapply frame_trans; eauto|]. exists ((da ++ [x']) ++ [[v]]).
          split; [exact R'|]. split; [reflexivity|]. split; [exact LB|]. cbn. fold o. rewrite app_length. cbn. rewrite <- E in C1, LV. lia.
      + destruct (put_good _ _ _ l (v_push_back v (mk_vec x c)) G) as (m0 & PE & G0 & _ & I0 & M0 & N0 & O0); [rewrite !in_app_iff; cbn; auto|]. rewrite PE. cbn [bind].
        eexists _, _. split; [reflexivity|]. split; [exact G0|]. split; [split; [exact I0|split; [exact M0|]]; intros b I; apply O0; intros ->; contradiction|].
        exists (da ++ [x ++ [v]]). split; [|split; [reflexivity|split; [exact LB|exact LV]]].
        apply Forall2_app; [eapply rows_put with (b := l); eauto|]. constructor; [|constructor]. unfold lo, lim in *. cbn [pr_core r_opt] in *.
        unfold v_push_back in N0. cbn [v_data v_cap] in N0. destruct (Nat.ltb_spec (length x) c) as [LT|LT]; [|lia]. exists c. split; [exact N0|]. rewrite app_length. cbn. fold o in K2, K3, FU. lia.
  Qed.

  Lemma add_all_sim F vs : forall m p r, good bd (pr_rows p ++ F) m -> red_is true m p r ->
    exists p' m', p_add_all vs p m = Ok (p', m') /\ good bd (pr_rows p' ++ F) m' /\ frame F m m' /\ red_is true m' p' (r_add_all vs r).
  Proof.
    induction vs as [|v vs IH]; intros m p r G R; cbn [p_add_all r_add_all fold_left].
    - eexists _, _. split; [reflexivity|]. split; [exact G|]. split; [apply frame_refl|exact R].
    - destruct (add1_sim F m p r v G R) as (p1 & m1 & -> & G1 & F1 & R1). cbn [bind]. destruct (IH m1 p1 _ G1 R1) as (p2 & m2 & E & G2 & F2 & R2).
      exists p2, m2. split; [exact E|]. split; [exact G2|]. split; [eapply frame_trans; eauto|exact R2].
  Qed.
  Lemma red_map m p r f : red_is true m p r -> (forall d c, f (set_data d c) = set_data d (f c)) -> (forall c, r_opt (f c) = r_opt c) -> red_is true m (p_map f p) (f r).
  Proof.
    intros (d & R & -> & L & V) C O. exists d. unfold lo, lim in *. cbn [p_map pr_core pr_rows]. rewrite !O. split; [exact R|]. split; [apply C|]. auto.
  Qed.
  (** The call on the reducer made for a sample. *)
  Definition r_op (x : sample) (r : reducer) : reducer :=
    match x with
    | SmScalar _ v c => r_add v c r
    | SmArr _ vs c => r_add_arr vs c r
    | SmList _ vs => r_add_list vs r
    | SmRed d => r_add_red d r
    end.
  Lemma op_sim F m p r x : good bd (pr_rows p ++ F) m -> red_is true m p r ->
    exists p' m', p_op x p m = Ok (p', m') /\ good bd (pr_rows p' ++ F) m' /\ frame F m m' /\ red_is true m' p' (r_op x r).
  Proof.
    intros G R. destruct x as [ts v c|ts vs c|ts vs|d]; cbn [p_op r_op].
    - destruct (add1_sim F m p r v G R) as (p1 & m1 & -> & G1 & F1 & R1). cbn [bind]. eexists _, _. split; [reflexivity|]. split; [exact G1|]. split; [exact F1|]. apply (red_map _ _ _ (r_account _ _)); auto.
    - destruct (add_all_sim F vs m p r G R) as (p1 & m1 & -> & G1 & F1 & R1). cbn [bind]. eexists _, _. split; [reflexivity|]. split; [exact G1|]. split; [exact F1|]. apply (red_map _ _ _ (r_account _ _)); auto.
    - destruct (add_all_sim F vs m p r G R) as (p1 & m1 & -> & G1 & F1 & R1). cbn [bind]. eexists _, _. split; [reflexivity|]. split; [exact G1|]. split; [exact F1|]. apply (red_map _ _ _ (r_account _ _)); auto.
    - destruct (add_all_sim F (rd_data d) m p r G R) as (p1 & m1 & -> & G1 & F1 & R1). cbn [bind]. eexists _, _. split; [reflexivity|].
      apply (red_map _ _ _ (r_account (ri_count (rd_info d)) (if Z.of_nat (length (rd_data d)) <? ri_count (rd_info d) then ri_count (rd_info d) - Z.of_nat (length (rd_data d)) else 0))) in R1; auto.
      unfold r_add_red, r_add_arr. set (p2 := p_map _ p1) in *. set (r2 := r_account _ _ _) in *.
      assert (X : forall z q t, pr_rows q = pr_rows p1 -> red_is true m1 q t ->
        pr_rows (if negb (z =? 0) then p_map (r_minmax z) q else q) = pr_rows p1 /\ red_is true m1 (if negb (z =? 0) then p_map (r_minmax z) q else q) (if negb (z =? 0) then r_minmax z t else t)).
      { intros z q t Q T. destruct (negb (z =? 0)); [split; [exact Q|apply red_map; auto]|auto]. }
      destruct (X (ri_min (rd_info d)) p2 r2 eq_refl R1) as [A1 A2]. destruct (X (ri_max (rd_info d)) _ _ A1 A2) as [A3 A4].
      split; [rewrite A3; exact G1|]. split; [exact F1|]. exact A4.
  Qed.

  Lemma delete_all_good O rows : forall m, good bd (rows ++ O) m -> exists m', h_delete_all rows m = Ok m' /\ good bd O m' /\ frame O m m'.
  Proof.
    induction rows as [|b rows IH]; intros m G; cbn [h_delete_all]; [exists m; split; [reflexivity|]; split; [exact G|apply frame_refl]|].
    cbn in G. destruct (delete_good _ _ _ _ G) as (m1 & -> & G1 & F1 & _). cbn [bind]. destruct (IH m1 G1) as (m2 & E & G2 & F2). exists m2. split; [exact E|]. split; [exact G2|].
    eapply frame_trans; [eapply frame_incl; [exact F1|]; intros; apply in_app_iff; auto|exact F2].
  Qed.
  Lemma free_all_good lw l O rows d : forall m, good bd (rows ++ O) m -> rows_are bd lw l m rows d -> exists m', a_free_all rows m = Ok m' /\ good bd O m' /\ frame O m m'.
  Proof.
    revert d. induction rows as [|b rows IH]; intros d m G R; cbn [a_free_all]; [exists m; split; [reflexivity|]; split; [exact G|apply frame_refl]|].
    inversion R as [|? x ? ds (c & H & K & _) R2]; subst. cbn in G. destruct (free_good _ _ _ _ _ _ G H K) as (m1 & -> & G1 & F1). cbn [bind].
    destruct (IH ds m1 G1) as (m2 & E & G2 & F2); [eapply rows_frame; [exact R2|exact F1|]; intros; apply in_app_iff; auto|]. exists m2. split; [exact E|]. split; [exact G2|].
    eapply frame_trans; [eapply frame_incl; [exact F1|]; intros; apply in_app_iff; auto|exact F2].
  Qed.
  Lemma clear_sim F m p r k : good bd (pr_rows p ++ F) m -> red_is k m p r ->
    exists p' m', p_clear p m = Ok (p', m') /\ pr_rows p' = [] /\ good bd F m' /\ frame F m m' /\ red_is true m' p' (r_clear r).
  Proof.
    intros G (d & R & -> & L & V). unfold p_clear. destruct (delete_all_good F _ _ G) as (m1 & -> & G1 & F1). cbn [bind]. eexists _, _. split; [reflexivity|]. split; [reflexivity|]. split; [exact G1|]. split; [exact F1|].
    exists []. split; [constructor|]. split; [reflexivity|]. split; [exact L|cbn; lia].
  Qed.
  Lemma copy_good lw l O rows d : forall m, good bd O m -> rows_are bd lw l m rows d -> (forall b, In b rows -> In b O) ->
    exists c m', p_copy rows m = Ok (c, m') /\ good bd (c ++ O) m' /\ frame O m m' /\ rows_are bd 0 l m' c d /\ length c = length rows.
  Proof.
    revert d O. induction rows as [|b rows IH]; intros d O m G R I; cbn [p_copy].
    - inversion R; subst. eexists [], m. split; [reflexivity|]. split; [exact G|]. split; [apply frame_refl|]. split; [constructor|reflexivity].
    - inversion R as [|? x ? ds (c & H & K1 & K2 & K3) R2]; subst. rewrite (get_ok _ _ _ H). cbn [bind].
      destruct (h_new (v_copy (mk_vec x c)) m) as [b1 m1] eqn:N. destruct (new_good _ _ _ _ _ _ G N) as (G1 & F1 & N1 & _).
      destruct (IH ds (b1 :: O) m1 G1) as (cs & m2 & -> & G2 & F2 & R3 & LC).
      { eapply rows_frame; [exact R2|exact F1|]. intros b' I'. apply I. right. exact I'. }
      { intros b' I'. right. apply I. right. exact I'. }
      cbn [bind]. eexists _, _. split; [reflexivity|]. split; [eapply good_perm; [exact G2|]; symmetry; apply Permutation_middle|].
      split; [eapply frame_trans; [exact F1|]; eapply frame_incl; [exact F2|]; intros; right; assumption|]. split; [|cbn; congruence].
      constructor; [|exact R3]. exists (length x). split; [|lia]. destruct F2 as (_ & _ & F2). rewrite F2 by (left; reflexivity). exact N1.
  Qed.
  Lemma clone_sim F m p r : good bd (pr_rows p ++ F) m -> red_is true m p r ->
    exists p' m', p_clone p m = Ok (p', m') /\ good bd (pr_rows p' ++ pr_rows p ++ F) m' /\ frame (pr_rows p ++ F) m m' /\ red_is false m' p' (r_clone r).
  Proof.
    intros G (d & R & -> & L & V). unfold p_clone. destruct (copy_good _ _ (pr_rows p ++ F) _ _ m G R) as (c & m1 & -> & G1 & F1 & R1 & LC); [intros; apply in_app_iff; auto|].
    cbn [bind]. eexists _, _. split; [reflexivity|]. split; [exact G1|]. split; [exact F1|]. exists d. unfold lo, lim in *. cbn [pr_core pr_rows r_clone r_opt reducer_new].
    rewrite ctor_opt_limit, ctor_opt_levels, LC. split; [exact R1|]. auto.
  Qed.

  Variable ne : nat -> list Z -> list Z.
  Hypothesis ne_len : forall k l, length (ne k l) = length l.
  Lemma set_len {A} (d : list (list A)) : forall l v w, nth_error d l = Some v -> length w = length v -> map (@length A) (set_nth l w d) = map (@length A) d.
  Proof. induction d as [|y d IH]; intros [|l] v w E X; cbn in *; try discriminate; [injection E as ->; congruence|]. f_equal. eauto. Qed.
  Lemma nthel_len l i d d1 : nth_element_ ne l i d = Ok d1 -> map (@length Z) d1 = map (@length Z) d.
  Proof.
    unfold nth_element_, row. destruct (nth_error d l) as [v|] eqn:E; cbn [bind]; [|discriminate]. destruct (length v <? i)%nat; [discriminate|].
    set (from := if (i <? l)%nat then 0%nat else (i - l)%nat). intros H. injection H as <-.
    assert (X : length (firstn from v ++ ne (i - from) (skipn from v)) = length v) by (rewrite app_length, ne_len, firstn_length, skipn_length; lia).
    eapply set_len; [exact E|exact X].
  Qed.
  Lemma putnth_len cm l i d d1 : put_nth ne cm l i d = Ok d1 -> map (@length Z) d1 = map (@length Z) d.
  Proof.
    unfold put_nth, get_nth_. assert (Y : exists y, (if rmode_eqb cm Nth then nth_element_ ne l i d else Ok d) = y) by eauto. destruct Y as [y Y]. rewrite Y.
    destruct y as [d2| |]; cbn [bind]; try discriminate. assert (L2 : map (@length Z) d2 = map (@length Z) d) by (destruct (rmode_eqb cm Nth); [eapply nthel_len; exact Y|injection Y as <-; reflexivity]).
    unfold row, at_. destruct (nth_error d2 l) as [v|]; cbn [bind]; [|discriminate]. destruct (nth_error v i) as [x|]; cbn [bind]; [|discriminate].
    destruct (nth_error d2 0) as [v0|] eqn:E0; cbn [bind]; [|discriminate]. destruct (nth_error v0 i); cbn [bind]; [|discriminate]. intros H. injection H as <-.
    rewrite <- L2. apply (set_len d2 0 v0 (set_nth i x v0) E0). apply set_nth_length.
  Qed.
  Lemma loop_len cm n todo : forall i l d d1, reduce_loop ne cm n todo i l d = Ok d1 -> map (@length Z) d1 = map (@length Z) d.
  Proof.
    induction todo as [|todo IH]; intros i l d d1 H; cbn [reduce_loop] in H; [injection H as <-; reflexivity|].
    destruct (l =? n)%nat.
    - assert (Y : exists y, (if rmode_eqb cm Nth then nth_element_ ne 0 i d else Ok d) = y) by eauto. destruct Y as [y Y]. rewrite Y in H.
      destruct y as [d2| |]; cbn [bind] in H; try discriminate. apply IH in H. rewrite H. destruct (rmode_eqb cm Nth); [eapply nthel_len; exact Y|injection Y as <-; reflexivity].
    - destruct (l =? n - 1)%nat.
      + unfold row in H. destruct (nth_error d l) as [v|]; cbn [bind] in H; [|discriminate]. destruct (i <? length v)%nat; [|eapply IH; exact H].
        destruct (put_nth ne cm l i d) as [d2| |] eqn:P; cbn [bind] in H; try discriminate. apply IH in H. rewrite H. eapply putnth_len; exact P.
      + destruct (put_nth ne cm l i d) as [d2| |] eqn:P; cbn [bind] in H; try discriminate. apply IH in H. rewrite H. eapply putnth_len; exact P.
  Qed.
  Lemma isort_len l : length (isort l) = length l.
  Proof. symmetry. apply Permutation_length, isort_perm. Qed.
  Lemma reduce_shape r r' x d : r_reduce ne r = Ok r' -> r_data r = x :: d -> exists x', r_data r' = [x'] /\ length x' = length x /\ r_opt r' = r_opt r.
  Proof.
    unfold r_reduce. intros H D. rewrite D in H.
    set (d0 := if rmode_eqb (r_cur r) Sorting then upd_last isort (x :: d) else x :: d) in *.
    assert (L0 : map (@length Z) d0 = map (@length Z) (x :: d)).
    { unfold d0. destruct (rmode_eqb (r_cur r) Sorting); [|reflexivity]. clear. generalize (x :: d) as l. induction l as [|y l IH]; [reflexivity|]. cbn [upd_last]. destruct l; cbn in *; [rewrite isort_len; reflexivity|]. f_equal. exact IH. }
    destruct (length d0 =? 1)%nat eqn:N1.
    - injection H as <-. cbn [r_data r_opt]. apply Nat.eqb_eq in N1. destruct d0 as [|x0 [|? ?]]; try discriminate. exists x0. cbn in L0. injection L0 as L0 _. auto.
    - destruct (reduce_loop ne (r_cur r) (length d0) (o_limit (r_opt r)) 0 (length d0) d0) as [d1| |] eqn:E; cbn [bind] in H; try discriminate. injection H as <-. cbn [r_data r_opt].
      apply loop_len in E. rewrite L0 in E. destruct d1 as [|x1 d1]; [discriminate|]. cbn in E. injection E as E _. exists x1. auto.
  Qed.
  Lemma set_data_self r d : r_data r = d -> set_data d (set_data [] r) = r.
  Proof. intros <-. destruct r. reflexivity. Qed.

  Lemma reduce_sim F m p r k : good bd (pr_rows p ++ F) m -> red_is k m p r ->
    sim (fun '(p', m') r' => good bd (pr_rows p' ++ F) m' /\ frame F m m' /\ red_is k m' p' r') (p_reduce ne p m) (r_reduce ne r).
  Proof.
    intros G (d & R & -> & L & V). unfold p_reduce. destruct (pr_rows p) as [|b others] eqn:E.
    - inversion R; subst. cbn [r_reduce set_data r_data sim]. rewrite E. split; [exact G|]. split; [apply frame_refl|]. exists []. rewrite E. split; [constructor|]. auto.
    - rewrite distinct_nodup by (eapply NoDup_app_l; rewrite app_assoc; apply (gd_nodup _ _ _ G)). cbn [negb]. rewrite (rows_load _ _ _ _ _ _ R). cbn [bind].
      inversion R as [|? x ? ds (c & H & K1 & K2 & K3) R2]; subst.
      destruct (r_reduce ne (set_data (x :: ds) (pr_core p))) as [r'| |] eqn:RE; cbn [bind sim]; auto.
      destruct (reduce_shape _ _ x ds RE eq_refl) as (x' & D' & LX & O'). rewrite (get_ok _ _ _ H). cbn [bind]. rewrite D'.
      destruct (put_good _ _ _ b (v_assign x' (mk_vec x c)) G (or_introl eq_refl)) as (m1 & PE & G1 & _ & I1 & M1 & N1 & O1). rewrite PE. cbn [bind].
      assert (NI : ~ In b (others ++ F)). { pose proof (gd_nodup _ _ _ G) as A. cbn in A. inversion A; subst. intros I. apply H2, in_app_iff. auto. }
      destruct (free_all_good (lo k p) (lim p) (b :: F) others ds m1) as (m2 & -> & G2 & F2).
      { eapply good_perm; [exact G1|]. cbn. apply Permutation_middle. }
      { eapply rows_put with (b := b); [exact R2| |exact O1]. intros I. apply NI, in_app_iff. auto. }
      cbn [bind sim]. split; [exact G2|]. split.
      { eapply frame_trans; [|eapply frame_incl; [exact F2|intros; right; assumption]]. split; [exact I1|split; [exact M1|]]. intros b' I. apply O1. intros ->. apply NI, in_app_iff. auto. }
      exists [x']. unfold lo, lim in *. cbn [pr_core pr_rows set_data r_opt] in *. rewrite O'. cbn [set_data r_opt]. split; [|split; [|split; [exact L|cbn in *; lia]]].
      + constructor; [|constructor]. exists c. destruct F2 as (_ & _ & F2). rewrite F2 by (left; reflexivity). split; [exact N1|]. lia.
      + symmetry. apply (set_data_self r' [x'] D').
  Qed.

  Definition prec_ok (x : prec) : Prop := (length (ad_data (pc_rec x)) <= pc_cap x <= bd)%nat.
  Definition opt_is (a : option prec) (b : option adata) : Prop :=
    match a, b with None, None => True | Some x, Some y => pc_rec x = y /\ prec_ok x | _, _ => False end.
  Lemma detach_sim F m p r k : good bd (pr_rows p ++ F) m -> red_is k m p r ->
    sim (fun '(a, p', m') '(a', r') => opt_is a a' /\ good bd (pr_rows p' ++ F) m' /\ frame F m m' /\ red_is k m' p' r')
      (p_detach ne p m) (r_detach ne r).
  Proof.
    intros G R. unfold p_detach, r_detach. assert (EM : r_empty (pr_core p) = r_empty r) by (destruct R as (d & _ & -> & _); reflexivity). rewrite EM. destruct (r_empty r).
    { cbn. split; [exact I|]. split; [exact G|]. split; [apply frame_refl|]. auto. }
    eapply sim_bind; [exact (reduce_sim F m p r k G R)|]. intros [p1 m1] r1 (G1 & F1 & (d & R1 & -> & L1 & V1)). cbn [set_data r_data r_avg r_total r_lossy r_min r_max].
    assert (SW : exists v m2, match pr_rows p1 with [] => Ok (mk_vec [] 0, m1) | b :: _ => y <- h_get b m1 ;; m2 <- h_put b (mk_vec [] 0) m1 ;; Ok (y, m2) end = Ok (v, m2) /\
      good bd (pr_rows p1 ++ F) m2 /\ frame F m1 m2 /\ v_data v = match d with [] => [] | x :: _ => x end /\ (length (v_data v) <= v_cap v <= bd)%nat).
    { destruct (pr_rows p1) as [|b rs] eqn:E.
      - inversion R1; subst. eexists _, _. split; [reflexivity|]. split; [exact G1|]. split; [apply frame_refl|]. cbn. split; [reflexivity|lia].
      - inversion R1 as [|? x ? ds (c & H & K1 & K2 & K3) R2]; subst. rewrite (get_ok _ _ _ H). cbn [bind].
        destruct (put_good _ _ _ b (mk_vec [] 0) G1 (or_introl eq_refl)) as (m2 & PE & G2 & _ & I2 & M2 & N2 & O2). rewrite PE. cbn [bind].
        eexists _, _. split; [reflexivity|]. split; [exact G2|]. split; [|cbn; split; [reflexivity|lia]]. split; [exact I2|split; [exact M2|]]. intros b' I. apply O2. intros ->.
        pose proof (gd_nodup _ _ _ G1) as A. cbn in A. inversion A; subst. apply H2. rewrite !in_app_iff. auto. }
    destruct SW as (v & m2 & -> & G2 & F2 & DV & CV). cbn [bind].
    destruct (f64_to_i64 (r_avg (pr_core p1))) as [avg| |]; cbn [bind sim]; auto.
    unfold p_clear. destruct (delete_all_good F _ _ G2) as (m3 & -> & G3 & F3). cbn [bind sim opt_is pc_rec].
    split; [split; [rewrite DV; reflexivity|exact CV]|]. split; [exact G3|]. split; [eapply frame_trans; [exact F1|]; eapply frame_trans; eauto|].
    assert (X : forall k, red_is k m3 (mk_pred (r_clear (pr_core p1)) []) (r_clear (set_data d (pr_core p1)))) by (intros k'; exists []; split; [constructor|]; split; [reflexivity|]; split; [exact L1|cbn; lia]).
    apply X.
  Qed.
  Lemma get_reduced_sim F m p r : good bd (pr_rows p ++ F) m -> red_is true m p r ->
    sim (fun '(a, m') a' => opt_is a a' /\ good bd (pr_rows p ++ F) m' /\ frame (pr_rows p ++ F) m m') (p_get_reduced ne p m) (r_get_reduced ne r).
  Proof.
    intros G R. unfold p_get_reduced, r_get_reduced. destruct (clone_sim F m p r G R) as (c & m1 & -> & G1 & F1 & R1). cbn [bind].
    eapply sim_bind; [exact (detach_sim _ m1 c _ false G1 R1)|]. intros [[a c1] m2] [a' r'] (A & G2 & F2 & R2).
    destruct (clear_sim _ m2 c1 r' false G2 R2) as (p3 & m3 & -> & _ & G3 & F3 & _). cbn [bind sim].
    split; [exact A|]. split; [exact G3|]. eapply frame_trans; [exact F1|]. eapply frame_trans; eauto.
  Qed.
End Sim.
