(** Invariant of the registry and its relation to independent per-name aggregators. *)
From Coq Require Import ZArith List Bool Permutation Lia Arith Ascii.
From Verif Require Import Base ModelTypes ModelAvg ModelReducer SpecReducer ModelSeparator SpecSeparator
  ModelAggregator SpecAggregator ModelRegistry SpecRegistry.
Import ListNotations.
Local Open Scope Z_scope.

Lemma name_eqb_spec a b : reflect (a = b) (name_eqb a b).
Proof. unfold name_eqb. destruct (list_eq_dec ascii_dec a b); constructor; auto. Qed.
Lemma name_eqb_refl a : name_eqb a a = true.
Proof. destruct (name_eqb_spec a a); congruence. Qed.

Section Maps.
  Context {K V : Type} (eqb : K -> K -> bool) (eqb_spec : forall a b, reflect (a = b) (eqb a b)).
  Lemma m_find_cons k k' (v : V) m : m_find eqb k ((k', v) :: m) = if eqb k k' then Some v else m_find eqb k m.
  Proof. reflexivity. Qed.
  Lemma m_find_insert k k' (v : V) m : m_find eqb k' m = None ->
    m_find eqb k (m_insert eqb k' v m) = if eqb k k' then Some v else m_find eqb k m.
  Proof. intros H. unfold m_insert. rewrite H. reflexivity. Qed.
  Lemma m_find_erase k k' (m : list (K * V)) : m_find eqb k (m_erase eqb k' m) = if eqb k' k then None else m_find eqb k m.
  Proof.
    unfold m_erase. induction m as [|[x v] m IH]; simpl; [now destruct (eqb k' k)|].
    destruct (eqb_spec k' x) as [->|N]; simpl.
    - rewrite IH. destruct (eqb_spec x k) as [->|N]; auto. destruct (eqb_spec k x); congruence.
    - rewrite IH. destruct (eqb_spec k' k) as [->|N']; auto. destruct (eqb_spec k x); congruence.
  Qed.
End Maps.
Lemma zeqb_spec (a b : Z) : reflect (a = b) (a =? b). Proof. apply Z.eqb_spec. Qed.
Definition find_name_insert := @m_find_insert name Z name_eqb.

(** * Array *)
Lemma set_nth_length {A} i (x : A) l : length (set_nth i x l) = length l.
Proof. revert i. induction l; intros [|i]; simpl; auto. Qed.
Lemma set_nth_same {A} i (x : A) l : (i < length l)%nat -> nth_error (set_nth i x l) i = Some x.
Proof. revert i. induction l; intros [|i] H; simpl in *; try lia; auto. apply IHl. lia. Qed.
Lemma set_nth_other {A} i j (x : A) l : i <> j -> nth_error (set_nth i x l) j = nth_error l j.
Proof. revert i j. induction l; intros [|i] [|j] H; simpl in *; auto; try lia. Qed.
Lemma resize_some {A} n (l : list (option A)) i (x : A) : nth_error (resize n l) i = Some (Some x) <-> nth_error l i = Some (Some x).
Proof.
  unfold resize. destruct (lt_dec i (length l)) as [H|H].
  - rewrite nth_error_app1 by auto. tauto.
  - rewrite nth_error_app2 by lia. split; intros E.
    + apply nth_error_In, repeat_spec in E. discriminate.
    + assert (i < length l)%nat by (apply nth_error_Some; congruence). lia.
Qed.
Lemma resize_length {A} n (l : list (option A)) : (n <= length (resize n l))%nat.
Proof. unfold resize. rewrite app_length, repeat_length. lia. Qed.
Lemma nth_error_lt {A} (l : list A) i x : nth_error l i = Some x -> (i < length l)%nat.
Proof. intros H. apply nth_error_Some. congruence. Qed.

(** * Id arithmetic *)
Definition posn (step id : Z) : nat := Z.to_nat ((id + step - 1) / step).
Definition nth_id (o : rgopts) (j : nat) : Z := rgo_init o + rgo_step o * Z.of_nat j.

Lemma posn_nth o j : 0 <= rgo_init o -> 0 < rgo_step o ->
  posn (rgo_step o) (nth_id o j) = (j + Z.to_nat ((rgo_init o + rgo_step o - 1) / rgo_step o))%nat.
Proof.
  intros H1 H2. unfold posn, nth_id.
  replace (rgo_init o + rgo_step o * Z.of_nat j + rgo_step o - 1) with (rgo_init o + rgo_step o - 1 + Z.of_nat j * rgo_step o) by lia.
  rewrite Z.div_add by lia. rewrite Z2Nat.inj_add; [lia| |lia]. apply Z.div_pos; lia.
Qed.
Lemma nth_id_inj o i j : 0 < rgo_step o -> nth_id o i = nth_id o j -> i = j.
Proof. unfold nth_id. intros. nia. Qed.

(** * Invariant *)
Record RInv (o : rgopts) (k : nat) (r : registry) : Prop := {
  ri_opt : rg_opt r = rgo_agg o;
  ri_step : d_step (rg_dict r) = rgo_step o;
  ri_counter : d_counter (rg_dict r) = nth_id o k;
  ri_inv : forall n id, m_find name_eqb n (d_dict (rg_dict r)) = Some id <-> m_find Z.eqb id (d_index (rg_dict r)) = Some n;
  ri_noname : m_find name_eqb [] (d_dict (rg_dict r)) = None;
  ri_live : forall n id, m_find name_eqb n (d_dict (rg_dict r)) = Some id -> exists j, (1 <= j <= k)%nat /\ id = nth_id o j;
  ri_free : forall id, In id (d_free (rg_dict r)) ->
     (exists j, (1 <= j <= k)%nat /\ id = nth_id o j) /\ m_find Z.eqb id (d_index (rg_dict r)) = None;
  ri_arr : forall pos s g, nth_error (rg_arr r) pos = Some (Some (s, g)) -> (s < rg_next r)%nat /\
     exists n id, m_find name_eqb n (d_dict (rg_dict r)) = Some id /\ pos = posn (rgo_step o) id;
  ri_slot : forall n id, m_find name_eqb n (d_dict (rg_dict r)) = Some id ->
     exists s g, nth_error (rg_arr r) (posn (rgo_step o) id) = Some (Some (s, g));
  ri_uniq : forall p1 p2 s g1 g2, nth_error (rg_arr r) p1 = Some (Some (s, g1)) -> nth_error (rg_arr r) p2 = Some (Some (s, g2)) -> p1 = p2;
  ri_len : (length (rg_arr r) <= S (posn (rgo_step o) (nth_id o k)))%nat }.

Lemma RInv_new o : RInv o 0 (rg_new o).
Proof.
  constructor; simpl; auto; try discriminate; try tauto; try lia.
  - unfold nth_id. lia.
  - split; discriminate.
  - intros [|pos]; discriminate.
  - intros [|p1]; discriminate.
Qed.

Lemma posn_mono o i j : 0 <= rgo_init o -> 0 < rgo_step o -> (i <= j)%nat -> (posn (rgo_step o) (nth_id o i) <= posn (rgo_step o) (nth_id o j))%nat.
Proof. intros A B C. rewrite !posn_nth by auto. lia. Qed.

Section Inv.
  Variable ne : nat -> list Z -> list Z.
  Variable o : rgopts.
  Variable N : nat.
  Hypothesis F : fits o N.

  Let step := rgo_step o.
  Lemma step_pos : 0 < step. Proof. apply F. Qed.
  Lemma id_range j : (j <= S N)%nat -> 0 <= nth_id o j /\ nth_id o j + step < bad_id.
  Proof. destruct F as (A & B & C). unfold nth_id, bad_id. subst step. intros. split; [nia|]. nia. Qed.
  Lemma id_pos j : (1 <= j)%nat -> rgo_init o < nth_id o j.
  Proof. destruct F as (A & B & C). unfold nth_id. nia. Qed.

  Lemma posn_inj i j : posn step (nth_id o i) = posn step (nth_id o j) -> i = j.
  Proof. subst step. rewrite !posn_nth by apply F. lia. Qed.

  Lemma id2pos_ok k r j : RInv o k r -> (j <= S N)%nat -> d_id2pos (nth_id o j) (rg_dict r) = Ok (posn step (nth_id o j)).
  Proof.
    intros I Hj. unfold d_id2pos. rewrite (ri_step _ _ _ I). fold step. pose proof step_pos.
    destruct (Z.eqb_spec step 0); [lia|]. unfold posn. do 2 f_equal. f_equal.
    apply Z.mod_small. pose proof (id_range j Hj). unfold bad_id in *. lia.
  Qed.

  Definition slot (r : registry) (n : name) : option (Z * nat * agg) :=
    match m_find name_eqb n (d_dict (rg_dict r)) with
    | None => None
    | Some id => match nth_error (rg_arr r) (posn step id) with Some (Some (s, g)) => Some (id, s, g) | _ => None end
    end.
  Lemma rg_get_live k r n id : RInv o k r -> (k <= N)%nat -> m_find name_eqb n (d_dict (rg_dict r)) = Some id ->
    exists s g, nth_error (rg_arr r) (posn step id) = Some (Some (s, g)) /\ rg_get id r = Ok (Some (posn step id, (s, g))).
  Proof.
    intros I Hk E. destruct (ri_live _ _ _ I _ _ E) as (j & Hj & ->).
    destruct (ri_slot _ _ _ I _ _ E) as (s & g & E'). fold step in E'. exists s, g. split; auto.
    unfold rg_get. pose proof (id_range j ltac:(lia)). pose proof step_pos.
    destruct (Z.eqb_spec (nth_id o j) bad_id); [lia|]. rewrite (id2pos_ok k r j I) by lia. cbn [bind]. now rewrite E'.
  Qed.
  Lemma find_slot k r n : RInv o k r -> (k <= N)%nat -> find_name n r = slot r n.
  Proof.
    intros I Hk. unfold find_name, slot. destruct (m_find name_eqb n _) as [id|] eqn:E; auto.
    destruct (rg_get_live k r n id I Hk E) as (s & g & E1 & E2). now rewrite E1, E2.
  Qed.
  Lemma slot_some k r n id : RInv o k r -> m_find name_eqb n (d_dict (rg_dict r)) = Some id ->
    exists s g, slot r n = Some (id, s, g) /\ nth_error (rg_arr r) (posn step id) = Some (Some (s, g)).
  Proof.
    intros I E. destruct (ri_slot _ _ _ I _ _ E) as (s & g & E'). fold step in E'. exists s, g. split; auto.
    unfold slot. now rewrite E, E'.
  Qed.

  (** Setting the slot of a live name. *)
  Lemma set_slot k r n id s g g' : RInv o k r -> m_find name_eqb n (d_dict (rg_dict r)) = Some id ->
    nth_error (rg_arr r) (posn step id) = Some (Some (s, g)) ->
    let r' := rg_set (posn step id) (Some (s, g')) r in
    RInv o k r' /\ slot r' n = Some (id, s, g') /\ forall m, m <> n -> slot r' m = slot r m.
  Proof.
    intros I E ES r'. pose proof (nth_error_lt _ _ _ ES) as L.
    assert (INJ : forall m id', m_find name_eqb m (d_dict (rg_dict r)) = Some id' -> posn step id' = posn step id -> m = n /\ id' = id).
    { intros m id' E' P. destruct (ri_live _ _ _ I _ _ E) as (j & _ & ->). destruct (ri_live _ _ _ I _ _ E') as (j' & _ & ->).
      apply posn_inj in P. subst j'. split; auto. apply (ri_inv _ _ _ I) in E, E'. congruence. }
    split; [|split].
    - constructor; try (apply I).
      + intros pos s1 g1 H. simpl in *. destruct (Nat.eq_dec (posn step id) pos) as [<-|NE].
        * rewrite set_nth_same in H by auto. injection H as <- <-. apply (ri_arr _ _ _ I _ _ _ ES).
        * rewrite set_nth_other in H by auto. apply (ri_arr _ _ _ I _ _ _ H).
      + intros m id' E'. simpl in *. destruct (Nat.eq_dec (posn step id) (posn step id')) as [P|NE].
        * fold step. rewrite <- P, set_nth_same by auto. eauto.
        * fold step. rewrite set_nth_other by auto. apply (ri_slot _ _ _ I _ _ E').
      + assert (AUX : forall p s1 g1, nth_error (rg_arr r') p = Some (Some (s1, g1)) -> exists g2, nth_error (rg_arr r) p = Some (Some (s1, g2))).
        { intros p s1 g1 H. simpl in H. destruct (Nat.eq_dec (posn step id) p) as [<-|NE].
          - rewrite set_nth_same in H by auto. injection H as <- <-. eauto.
          - rewrite set_nth_other in H by auto. eauto. }
        intros p1 p2 s1 g1 g2 H1 H2. apply AUX in H1 as (a & H1). apply AUX in H2 as (b & H2). apply (ri_uniq _ _ _ I _ _ _ _ _ H1 H2).
      + simpl. rewrite set_nth_length. apply I.
    - unfold slot. simpl. rewrite E, set_nth_same by auto. reflexivity.
    - intros m NE. unfold slot. simpl. destruct (m_find name_eqb m _) as [id'|] eqn:E'; auto.
      rewrite set_nth_other; auto. intros P. apply NE. apply (INJ m id' E' (eq_sym P)).
  Qed.

  Definition cellof (r : registry) (n : name) : cell :=
    mk_cell (match slot r n with Some (_, _, g) => Some g | None => None end) (rg_enabled r) (rg_initializer r).
  Definition same_flags (r r' : registry) : Prop := rg_enabled r' = rg_enabled r /\ rg_initializer r' = rg_initializer r.
  Lemma cellof_same r r' n : same_flags r r' -> slot r' n = slot r n -> cellof r' n = cellof r n.
  Proof. intros [A B] C. unfold cellof. now rewrite A, B, C. Qed.

  (** create_id *)
  Lemma create_id_fresh k r pick n id d : RInv o k r -> (k <= N)%nat -> n <> [] ->
    m_find name_eqb n (d_dict (rg_dict r)) = None -> d_create_id pick n (rg_dict r) = (id, d) ->
    exists k' j, (k <= k' <= S k)%nat /\ (1 <= j <= k')%nat /\ id = nth_id o j /\ d_step d = rgo_step o /\ d_counter d = nth_id o k' /\
      m_find Z.eqb id (d_index (rg_dict r)) = None /\
      (forall m, m_find name_eqb m (d_dict d) = if name_eqb m n then Some id else m_find name_eqb m (d_dict (rg_dict r))) /\
      (forall i, m_find Z.eqb i (d_index d) = if i =? id then Some n else m_find Z.eqb i (d_index (rg_dict r))) /\
      (forall i, In i (d_free d) -> In i (d_free (rg_dict r)) /\ i <> id) /\
      (forall i, In i (d_free (rg_dict r)) -> i = id \/ In i (d_free d)) /\
      (k' = S k -> j = S k /\ d_free (rg_dict r) = []).
  Proof.
    intros I Hk HN EN EC. unfold d_create_id in EC. rewrite EN in EC.
    destruct (d_free (rg_dict r)) as [|f0 fr] eqn:EF.
    - cbv zeta in EC. injection EC as <- <-.
      assert (EI : u64 (d_counter (rg_dict r) + d_step (rg_dict r)) = nth_id o (S k)).
      { rewrite (ri_counter _ _ _ I), (ri_step _ _ _ I). pose proof (id_range (S k) ltac:(lia)). unfold u64. pose proof step_pos. fold step.
        assert (ES : nth_id o k + step = nth_id o (S k)) by (unfold nth_id, step; lia). rewrite ES. apply Z.mod_small.
        unfold bad_id in *. lia. }
      rewrite EI.
      assert (NI : m_find Z.eqb (nth_id o (S k)) (d_index (rg_dict r)) = None).
      { destruct (m_find Z.eqb _ _) as [m|] eqn:E; auto. apply (ri_inv _ _ _ I) in E. destruct (ri_live _ _ _ I _ _ E) as (j & Hj & EJ).
        apply nth_id_inj in EJ; [lia|apply F]. }
      exists (S k), (S k). split; [lia|]. split; [lia|]. split; auto. split; [apply I|]. split; auto. split; auto.
      split; [intros m; simpl; apply m_find_insert; auto|]. split; [intros i; simpl; apply m_find_insert; auto|].
      split; [simpl; tauto|]. split; [simpl; tauto|]. auto.
    - set (id0 := nth (pick mod length (f0 :: fr)) (f0 :: fr) f0) in *. cbv zeta in EC. injection EC as <- <-.
      assert (II : In id0 (f0 :: fr)).
      { unfold id0. apply nth_In. apply Nat.mod_upper_bound. simpl. lia. }
      rewrite <- EF in II. destruct (ri_free _ _ _ I _ II) as ((j & Hj & EJ) & NI).
      exists k, j. split; [lia|]. split; [lia|]. split; auto. split; [apply I|]. split; [apply I|]. split; auto.
      split; [intros m; simpl; apply m_find_insert; auto|]. split; [intros i; simpl; apply m_find_insert; auto|].
      rewrite EF in II. clearbody id0.
      assert (FR : forall i, In i (filter (fun x : Z => negb (x =? id0)) (f0 :: fr)) <-> In i (f0 :: fr) /\ i <> id0).
      { intros i. rewrite filter_In, negb_true_iff, Z.eqb_neq. tauto. }
      split; [intros i Hi; apply FR in Hi; auto|]. split; [|lia].
      intros i Hi. destruct (Z.eq_dec i id0); auto. right. apply FR. auto.
  Qed.

  Lemma create_sim k r e n now id r' : RInv o k r -> (k <= N)%nat -> rg_create ne e n now r = Ok (id, r') ->
    (n = [] -> id = bad_id /\ r' = r) /\
    (n <> [] -> exists k' g1, (k <= k' <= S k)%nat /\ RInv o k' r' /\ same_flags r r' /\
      m_find name_eqb n (d_dict (rg_dict r')) = Some id /\
      (forall m, m <> n -> slot r' m = slot r m) /\
      cell_create ne (rgo_agg o) e now (cellof r n) = Ok (g1, cellof r' n) /\
      (exists s, slot r' n = Some (id, s, g1)) /\
      (m_find name_eqb n (d_dict (rg_dict r)) <> None -> r' = r) /\
      (forall i, m_find Z.eqb i (d_index (rg_dict r')) = if i =? id then Some n else m_find Z.eqb i (d_index (rg_dict r))) /\
      (m_find name_eqb n (d_dict (rg_dict r)) = None -> m_find Z.eqb id (d_index (rg_dict r)) = None)).
  Proof.
    intros I Hk E. split; [intros ->; simpl in E; injection E as <- <-; auto|]. intros HN.
    assert (E' : (let '(id, d) := d_create_id (ce_pick e) n (rg_dict r) in
        pos <- d_id2pos id d ;;
        let r1 := mk_registry (rg_opt r) (rg_arr r) d (rg_enabled r) (rg_initializer r) (rg_next r) in
        match nth_error (rg_arr r) pos with
        | Some (Some _) => Ok (id, r1)
        | _ =>
            g <- agg_new (rg_opt r) (ce_clock e) (ce_rnd e) now ;;
            g1 <- (if negb (rg_enabled r) then Ok (g_enable false g)
                   else if rg_initializer r then
                     match ce_init e with
                     | Some rd => '(_, g') <- g_add_red ne (ce_c1 e) (ce_c2 e) rd g ;; Ok g'
                     | None => Ok g
                     end
                   else Ok g) ;;
            Ok (id, mk_registry (rg_opt r) (set_nth pos (Some (rg_next r, g1)) (resize (S pos) (rg_arr r))) d
                                (rg_enabled r) (rg_initializer r) (S (rg_next r)))
        end) = Ok (id, r')) by (destruct n; [congruence|exact E]).
    clear E. destruct (d_create_id (ce_pick e) n (rg_dict r)) as [id0 d] eqn:EC.
    destruct (m_find name_eqb n (d_dict (rg_dict r))) as [idn|] eqn:EN.
    - unfold d_create_id in EC. rewrite EN in EC. injection EC as <- <-.
      destruct (ri_live _ _ _ I _ _ EN) as (j & Hj & EJ). subst idn. rewrite (id2pos_ok k r j I) in E' by lia. cbn [bind] in E'.
      destruct (ri_slot _ _ _ I _ _ EN) as (s & g & ES). fold step in ES. rewrite ES in E'. cbv zeta in E'. injection E' as <- <-.
      replace (mk_registry (rg_opt r) (rg_arr r) (rg_dict r) (rg_enabled r) (rg_initializer r) (rg_next r)) with r by (now destruct r).
      exists k, g. split; [lia|]. split; auto. split; [split; auto|]. split; auto. split; auto.
      assert (SL : slot r n = Some (nth_id o j, s, g)) by (unfold slot; now rewrite EN, ES).
      split; [unfold cell_create, cellof; rewrite SL; reflexivity|]. split; [eauto|]. split; [auto|]. split; [|congruence].
      intros i. destruct (Z.eqb_spec i (nth_id o j)) as [->|]; auto. now apply (ri_inv _ _ _ I).
    - destruct (create_id_fresh k r _ n id0 d I Hk HN EN EC) as (k' & j & Hk' & Hj & -> & D1 & D2 & D3 & D4 & D5 & D6 & D7 & D8).
      assert (EP : d_id2pos (nth_id o j) d = Ok (posn step (nth_id o j))).
      { unfold d_id2pos. rewrite D1. fold step. pose proof step_pos.
        destruct (Z.eqb_spec step 0); [lia|]. unfold posn. do 2 f_equal. f_equal.
        apply Z.mod_small. pose proof (id_range j ltac:(lia)). unfold bad_id in *. lia. }
      rewrite EP in E'. cbn [bind] in E'. cbv zeta in E'. set (p := posn step (nth_id o j)) in *.
      assert (NS : forall x, nth_error (rg_arr r) p <> Some (Some x)).
      { intros [s g] H. destruct (ri_arr _ _ _ I _ _ _ H) as (_ & m & idm & E1 & E2).
        destruct (ri_live _ _ _ I _ _ E1) as (jm & Hjm & ->). apply posn_inj in E2. subst jm.
        apply (ri_inv _ _ _ I) in E1. congruence. }
      assert (CC : cell_create ne (rgo_agg o) e now (cellof r n) =
        (g <- agg_new (rg_opt r) (ce_clock e) (ce_rnd e) now ;;
         g1 <- (if negb (rg_enabled r) then Ok (g_enable false g)
                   else if rg_initializer r then
                     match ce_init e with
                     | Some rd => '(_, g') <- g_add_red ne (ce_c1 e) (ce_c2 e) rd g ;; Ok g'
                     | None => Ok g
                     end
                   else Ok g) ;; Ok (g1, mk_cell (Some g1) (rg_enabled r) (rg_initializer r)))).
      { unfold cell_create, cellof, slot. rewrite EN. simpl. rewrite (ri_opt _ _ _ I).
        destruct (agg_new _ _ _ _); cbn [bind]; auto. }
      assert (E2 : (g <- agg_new (rg_opt r) (ce_clock e) (ce_rnd e) now ;;
         g1 <- (if negb (rg_enabled r) then Ok (g_enable false g)
                   else if rg_initializer r then
                     match ce_init e with
                     | Some rd => '(_, g') <- g_add_red ne (ce_c1 e) (ce_c2 e) rd g ;; Ok g'
                     | None => Ok g
                     end
                   else Ok g) ;; 
          Ok (nth_id o j, mk_registry (rg_opt r) (set_nth p (Some (rg_next r, g1)) (resize (S p) (rg_arr r))) d
                                (rg_enabled r) (rg_initializer r) (S (rg_next r)))) = Ok (id, r')).
      { destruct (nth_error (rg_arr r) p) as [[x|]|] eqn:E; auto. exfalso. exact (NS x eq_refl). }
      clear E'. rewrite CC.
      destruct (agg_new (rg_opt r) (ce_clock e) (ce_rnd e) now) as [g| |]; cbn [bind] in E2 |- *; try discriminate.
      set (gi := if negb (rg_enabled r) then _ else _) in E2 |- *. clearbody gi.
      destruct gi as [g1| |]; cbn [bind] in E2 |- *; try discriminate. injection E2 as <- <-.
      set (r' := mk_registry _ _ _ _ _ _).
      assert (LP : (p < length (resize (S p) (rg_arr r)))%nat) by (pose proof (resize_length (S p) (rg_arr r)); lia).
      assert (AR : forall q x, q <> p -> (nth_error (rg_arr r') q = Some (Some x) <-> nth_error (rg_arr r) q = Some (Some x))).
      { intros q x Hq. unfold r'. simpl. rewrite set_nth_other by auto. apply resize_some. }
      assert (AP : nth_error (rg_arr r') p = Some (Some (rg_next r, g1))) by (unfold r'; simpl; now rewrite set_nth_same).
      assert (SLn : slot r' n = Some (nth_id o j, rg_next r, g1)).
      { unfold slot. replace (m_find name_eqb n (d_dict (rg_dict r'))) with (Some (nth_id o j)) by (unfold r'; simpl; now rewrite D4, name_eqb_refl).
        fold p. now rewrite AP. }
      assert (PO : forall m im, m <> n -> m_find name_eqb m (d_dict (rg_dict r)) = Some im -> posn step im <> p).
      { intros m im NE Em P. destruct (ri_live _ _ _ I _ _ Em) as (jm & Hjm & ->). apply posn_inj in P. subst jm.
        apply (ri_inv _ _ _ I) in Em. congruence. }
      exists k', g1. split; auto. split; [|split; [split; reflexivity|split; [unfold r'; simpl; now rewrite D4, name_eqb_refl|]]].
      + constructor.
        * apply I.
        * exact D1.
        * exact D2.
        * intros m i. unfold r'. simpl. rewrite D4, D5. destruct (name_eqb_spec m n) as [->|NE], (Z.eqb_spec i (nth_id o j)) as [->|NE'].
          -- tauto.
          -- split; [congruence|]. intros H. apply (ri_inv _ _ _ I) in H. congruence.
          -- split; [|congruence]. intros H. apply (ri_inv _ _ _ I) in H. congruence.
          -- apply (ri_inv _ _ _ I).
        * unfold r'. simpl. rewrite D4. destruct (name_eqb_spec [] n); [congruence|]. apply I.
        * unfold r'. simpl. intros m i. rewrite D4. destruct (name_eqb_spec m n) as [->|NE].
          -- intros H. injection H as <-. exists j. auto.
          -- intros H. destruct (ri_live _ _ _ I _ _ H) as (jm & Hjm & ->). exists jm. split; auto. lia.
        * unfold r'. simpl. intros i Hi. destruct (D6 i Hi) as (F1 & F2). destruct (ri_free _ _ _ I _ F1) as ((jm & Hjm & ->) & Fn).
          split; [exists jm; split; auto; lia|]. rewrite D5. destruct (Z.eqb_spec (nth_id o jm) (nth_id o j)); auto. congruence.
        * intros q s x H. destruct (Nat.eq_dec q p) as [->|NE].
          -- rewrite AP in H. injection H as <- <-. unfold r'. simpl. split; [lia|]. exists n, (nth_id o j). split; auto. now rewrite D4, name_eqb_refl.
          -- apply (AR q _ NE) in H. destruct (ri_arr _ _ _ I _ _ _ H) as (H1 & m & im & H2 & H3). unfold r'. simpl. split; [lia|].
             exists m, im. split; auto. rewrite D4. destruct (name_eqb_spec m n); auto. congruence.
        * intros m im. unfold r'. simpl rg_dict. rewrite D4. destruct (name_eqb_spec m n) as [->|NE].
          -- intros H. injection H as <-. fold step p. fold r'. eauto.
          -- intros H. fold r'. destruct (ri_slot _ _ _ I _ _ H) as (s & x & ES). exists s, x. apply AR; auto. apply (PO m im NE H).
        * intros p1 p2 s x1 x2 H1 H2. destruct (Nat.eq_dec p1 p) as [->|N1], (Nat.eq_dec p2 p) as [->|N2]; auto.
          -- rewrite AP in H1. injection H1 as <- <-. apply (AR _ _ N2) in H2. destruct (ri_arr _ _ _ I _ _ _ H2). lia.
          -- rewrite AP in H2. injection H2 as <- <-. apply (AR _ _ N1) in H1. destruct (ri_arr _ _ _ I _ _ _ H1). lia.
          -- apply (AR _ _ N1) in H1. apply (AR _ _ N2) in H2. apply (ri_uniq _ _ _ I _ _ _ _ _ H1 H2).
        * unfold r'. simpl. rewrite set_nth_length. unfold resize. rewrite app_length, repeat_length.
          pose proof (ri_len _ _ _ I) as RL. pose proof (posn_mono o k k' ltac:(apply F) ltac:(apply F) ltac:(lia)).
          pose proof (posn_mono o j k' ltac:(apply F) ltac:(apply F) ltac:(lia)). unfold p, step. lia.
      + split; [|split; [|split; [|split; [|split]]]].
        * intros m NE. unfold slot. replace (m_find name_eqb m (d_dict (rg_dict r'))) with (m_find name_eqb m (d_dict (rg_dict r))).
          2: { unfold r'. simpl. rewrite D4. destruct (name_eqb_spec m n); congruence. }
          destruct (m_find name_eqb m (d_dict (rg_dict r))) as [im|] eqn:Em; auto.
          destruct (ri_slot _ _ _ I _ _ Em) as (s & x & ES). fold step in ES. rewrite ES.
          apply (AR _ _ (PO m im NE Em)) in ES. now rewrite ES.
        * unfold cellof. rewrite SLn. reflexivity.
        * eauto.
        * congruence.
        * intros i. unfold r'. simpl. apply D5.
        * auto.
  Qed.

  Lemma call_sim k r id op out r' : RInv o k r -> (k <= N)%nat -> rg_call ne id op r = Ok (out, r') ->
    rg_get_name id r <> [] \/ rg_get id r = Ok None ->
    RInv o k r' /\ same_flags r r' /\ rg_dict r' = rg_dict r /\
    forall n, n <> [] -> if name_eqb (rg_get_name id r) n
      then cell_do ne (rgo_agg o) (CoCall op) (cellof r n) = Ok (COut out, cellof r' n) /\
           (exists s g g', slot r n = Some (id, s, g) /\ slot r' n = Some (id, s, g') /\ g_call ne op g = Ok (out, g'))
      else slot r' n = slot r n.
  Proof.
    intros I Hk E HC. unfold rg_call in E.
    destruct (m_find Z.eqb id (d_index (rg_dict r))) as [n0|] eqn:EI.
    - assert (EG : rg_get_name id r = n0) by (unfold rg_get_name, d_get_name; now rewrite EI).
      assert (ED := proj2 (ri_inv _ _ _ I n0 id) EI).
      destruct (rg_get_live k r n0 id I Hk ED) as (s & g & ES & EGG). rewrite EGG in E. cbn [bind] in E.
      destruct (g_call ne op g) as [[o1 g1]| |] eqn:Ec; cbn [bind] in E; try discriminate. injection E as <- <-.
      destruct (set_slot k r n0 id s g g1 I ED ES) as (I' & S1 & S2). split; auto. split; [split; reflexivity|]. split; auto.
      intros n HN. rewrite EG. destruct (name_eqb_spec n0 n) as [<-|NE]; [|apply S2; congruence].
      assert (SL : slot r n0 = Some (id, s, g)) by (unfold slot; now rewrite ED, ES).
      split; [|exists s, g, g1; auto].
      unfold cellof. rewrite SL, S1. simpl. rewrite Ec. reflexivity.
    - assert (EG : rg_get_name id r = []) by (unfold rg_get_name, d_get_name; now rewrite EI).
      destruct HC as [HC|HC]; [congruence|]. rewrite HC in E. cbn [bind] in E. injection E as <- <-.
      split; auto. split; [split; reflexivity|]. split; auto. intros n HN. rewrite EG.
      destruct (name_eqb_spec [] n); auto. congruence.
  Qed.

  (** Objects *)
  Lemma find_obj_some s l pos g : find_obj s l = Some (pos, g) -> nth_error l pos = Some (Some (s, g)).
  Proof.
    revert pos g. induction l as [|[[s' g']|] l IH]; simpl; intros pos g H; try discriminate.
    - destruct (Nat.eqb_spec s s') as [->|].
      + injection H as <- <-. reflexivity.
      + destruct (find_obj s l) as [[p x]|]; simpl in H; try discriminate. injection H as <- <-. apply IH. auto.
    - destruct (find_obj s l) as [[p x]|]; simpl in H; try discriminate. injection H as <- <-. apply IH. auto.
  Qed.
  Lemma find_obj_none s l : find_obj s l = None -> forall pos g, nth_error l pos <> Some (Some (s, g)).
  Proof.
    induction l as [|[[s' g']|] l IH]; simpl; intros H pos g.
    - destruct pos; discriminate.
    - destruct (Nat.eqb_spec s s') as [->|NE]; try discriminate.
      destruct (find_obj s l) as [[p x]|]; simpl in H; try discriminate.
      destruct pos; simpl; [congruence|]. apply IH; auto.
    - destruct (find_obj s l) as [[p x]|]; simpl in H; try discriminate.
      destruct pos; simpl; [congruence|]. apply IH; auto.
  Qed.

  Lemma push_sim k r p x c1 c2 l r' : RInv o k r -> (k <= N)%nat -> rg_call_pusher ne p x c1 c2 r = Ok (l, r') ->
    RInv o k r' /\ same_flags r r' /\ rg_dict r' = rg_dict r /\
    ((forall n id s g, slot r n = Some (id, s, g) -> s <> rp_obj p) -> l = [] /\ r' = r) /\
    forall n, n <> [] -> match slot r n with
      | Some (_, s, _) => if (s =? rp_obj p)%nat
          then cell_do ne (rgo_agg o) (CoPush (rp_pu p) x c1 c2) (cellof r n) = Ok (CRecs l, cellof r' n)
          else slot r' n = slot r n
      | None => slot r' n = slot r n
      end.
  Proof.
    intros I Hk E. unfold rg_call_pusher in E. destruct (find_obj (rp_obj p) (rg_arr r)) as [[pos g]|] eqn:EF.
    - apply find_obj_some in EF. destruct (ri_arr _ _ _ I _ _ _ EF) as (Hs & n0 & id & ED & ->). fold step in EF.
      set (f := fun h g => _) in E.
      destruct (g_call_pusher f (rp_pu p) g) as [[recs g1]| |] eqn:Ec; cbn [bind] in E; try discriminate. injection E as <- <-.
      destruct (set_slot k r n0 id (rp_obj p) g g1 I ED EF) as (I' & S1 & S2). split; auto. split; [split; reflexivity|]. split; auto.
      assert (SL : slot r n0 = Some (id, rp_obj p, g)) by (unfold slot; now rewrite ED, EF).
      split; [intros H; exfalso; exact (H _ _ _ _ SL eq_refl)|].
      intros n HN. destruct (list_eq_dec ascii_dec n n0) as [->|NE].
      + rewrite SL, Nat.eqb_refl. unfold cellof. fold step. rewrite SL, S1. cbn [cell_do cl_agg]. fold f. rewrite Ec. reflexivity.
      + fold step. rewrite (S2 n NE). destruct (slot r n) as [[[im s] x0]|] eqn:Em; auto.
        destruct (Nat.eqb_spec s (rp_obj p)) as [->|]; auto. exfalso. apply NE.
        unfold slot in Em. destruct (m_find name_eqb n (d_dict (rg_dict r))) as [im'|] eqn:E1; try discriminate.
        destruct (nth_error (rg_arr r) (posn step im')) as [[[s' g']|]|] eqn:E2; try discriminate. injection Em as -> -> ->.
        pose proof (ri_uniq _ _ _ I _ _ _ _ _ EF E2) as P.
        destruct (ri_live _ _ _ I _ _ ED) as (j & _ & ->). destruct (ri_live _ _ _ I _ _ E1) as (j' & _ & ->).
        apply posn_inj in P. subst j'. apply (ri_inv _ _ _ I) in ED, E1. congruence.
    - injection E as <- <-. split; auto. split; [split; reflexivity|]. split; auto. split; auto.
      pose proof (find_obj_none _ _ EF) as NF. intros n HN.
      destruct (slot r n) as [[[im s] x0]|] eqn:Em; auto. destruct (Nat.eqb_spec s (rp_obj p)) as [->|]; auto.
      exfalso. unfold slot in Em. destruct (m_find name_eqb n (d_dict (rg_dict r))) as [im'|] eqn:E1; try discriminate.
      destruct (nth_error (rg_arr r) (posn step im')) as [[[s' g']|]|] eqn:E2; try discriminate. injection Em as -> -> ->.
      exact (NF _ _ E2).
  Qed.

  Lemma del_sim k r n b r' : RInv o k r -> (k <= N)%nat -> rg_del n r = Ok (b, r') ->
    b = false /\ RInv o k r' /\ same_flags r r' /\ slot r' n = None /\ (forall m, m <> n -> slot r' m = slot r m) /\
    m_find name_eqb n (d_dict (rg_dict r')) = None /\
    (forall i, rg_get_name i r' = if name_eqb (rg_get_name i r) n then [] else rg_get_name i r) /\
    (forall s, (forall m id g, slot r' m <> Some (id, s, g)) <->
               ((forall m id g, slot r m = Some (id, s, g) -> m = n))) /\ rg_next r' = rg_next r.
  Proof.
    intros I Hk E. unfold rg_del, d_get_id in E.
    destruct (m_find name_eqb n (d_dict (rg_dict r))) as [id|] eqn:ED.
    2: { rewrite Z.eqb_refl in E. injection E as <- <-. split; auto. split; auto. split; [split; reflexivity|].
         assert (SN : slot r n = None) by (unfold slot; now rewrite ED).
         split; auto. split; auto. split; auto. split.
         - intros i. destruct (name_eqb_spec (rg_get_name i r) n) as [E1|]; auto.
           unfold rg_get_name, d_get_name in *. destruct (m_find Z.eqb i _) as [m|] eqn:E2; auto.
           apply (ri_inv _ _ _ I) in E2. congruence.
         - split; auto. intros s. split.
           + intros H m id g Hs. exfalso. exact (H _ _ _ Hs).
           + intros H m id g Hs. assert (m = n) by eauto. congruence. }
    destruct (ri_live _ _ _ I _ _ ED) as (j & Hj & EJ). subst id. pose proof (id_range j ltac:(lia)). pose proof step_pos.
    destruct (Z.eqb_spec (nth_id o j) bad_id); [lia|].
    rewrite (id2pos_ok k r j I) in E by lia. cbn [bind] in E. set (p := posn step (nth_id o j)) in *.
    destruct (ri_slot _ _ _ I _ _ ED) as (s0 & g0 & ES). fold step p in ES. pose proof (nth_error_lt _ _ _ ES) as LP.
    rewrite (proj2 (Nat.ltb_lt _ _) LP) in E. unfold d_free_id in E.
    assert (EI := proj1 (ri_inv _ _ _ I _ _) ED). rewrite EI in E. injection E as <- <-.
    set (r' := mk_registry _ _ _ _ _ _). split; auto.
    assert (NF : existsb (Z.eqb (nth_id o j)) (d_free (rg_dict r)) = false).
    { destruct (existsb _ _) eqn:X; auto. apply existsb_exists in X as (x & X1 & X2). apply Z.eqb_eq in X2. subst x.
      destruct (ri_free _ _ _ I _ X1). congruence. }
    assert (FD : forall m, m_find name_eqb m (d_dict (rg_dict r')) = if name_eqb n m then None else m_find name_eqb m (d_dict (rg_dict r))).
    { intros m. unfold r'. simpl. apply m_find_erase. apply name_eqb_spec. }
    assert (FI : forall i, m_find Z.eqb i (d_index (rg_dict r')) = if nth_id o j =? i then None else m_find Z.eqb i (d_index (rg_dict r))).
    { intros i. unfold r'. simpl. apply m_find_erase. apply zeqb_spec. }
    assert (PO : forall m im, m <> n -> m_find name_eqb m (d_dict (rg_dict r)) = Some im -> posn step im <> p).
    { intros m im NE Em P. destruct (ri_live _ _ _ I _ _ Em) as (jm & Hjm & ->). apply posn_inj in P. subst jm.
      apply (ri_inv _ _ _ I) in Em. congruence. }
    assert (AR : forall q x, nth_error (rg_arr r') q = Some (Some x) -> q <> p /\ nth_error (rg_arr r) q = Some (Some x)).
    { intros q x Hq. unfold r' in Hq. simpl in Hq. destruct (Nat.eq_dec p q) as [<-|NE].
      - rewrite set_nth_same in Hq by auto. discriminate.
      - rewrite set_nth_other in Hq by auto. auto. }
    assert (AR2 : forall q, q <> p -> nth_error (rg_arr r') q = nth_error (rg_arr r) q).
    { intros q Hq. unfold r'. simpl. rewrite set_nth_other by auto. auto. }
    assert (SN : slot r' n = None) by (unfold slot; now rewrite FD, name_eqb_refl).
    assert (SO : forall m, m <> n -> slot r' m = slot r m).
    { intros m NE. unfold slot. rewrite FD. destruct (name_eqb_spec n m); [congruence|].
      destruct (m_find name_eqb m (d_dict (rg_dict r))) as [im|] eqn:Em; auto.
      rewrite AR2 by (apply (PO m im NE Em)). auto. }
    split; [|split; [split; reflexivity|split; [exact SN|split; [exact SO|split; [now rewrite FD, name_eqb_refl|split; [|split]]]]]].
    - constructor.
      + apply I.
      + apply I.
      + apply I.
      + intros m i. rewrite FD, FI. destruct (name_eqb_spec n m) as [<-|NE], (Z.eqb_spec (nth_id o j) i) as [<-|NE'].
        * split; discriminate.
        * split; [discriminate|]. intros H'. apply (ri_inv _ _ _ I) in H'. congruence.
        * split; [|discriminate]. intros H'. apply (ri_inv _ _ _ I) in H'. congruence.
        * apply (ri_inv _ _ _ I).
      + rewrite FD. destruct (name_eqb n []); auto. apply I.
      + intros m i. rewrite FD. destruct (name_eqb n m); [discriminate|]. apply (ri_live _ _ _ I).
      + intros i Hi. unfold r' in Hi. simpl in Hi. rewrite NF in Hi. rewrite FI. apply in_app_or in Hi as [Hi|[<-|[]]].
        * destruct (ri_free _ _ _ I _ Hi) as [A B]. split; auto. destruct (_ =? _); auto.
        * split; [eauto|]. now rewrite Z.eqb_refl.
      + intros q s x Hq. apply AR in Hq as [Hq1 Hq2]. destruct (ri_arr _ _ _ I _ _ _ Hq2) as (A & m & im & B & C).
        split; auto. exists m, im. split; auto. rewrite FD. destruct (name_eqb_spec n m) as [<-|]; auto.
        exfalso. apply Hq1. rewrite ED in B. injection B as <-. exact C.
      + intros m im. rewrite FD. destruct (name_eqb_spec n m); [discriminate|]. intros Em.
        fold step. rewrite AR2 by (apply (PO m im); congruence). apply (ri_slot _ _ _ I _ _ Em).
      + intros p1 p2 s x1 x2 H1 H2. apply AR in H1 as [_ H1]. apply AR in H2 as [_ H2]. apply (ri_uniq _ _ _ I _ _ _ _ _ H1 H2).
      + unfold r'. simpl. rewrite set_nth_length. apply I.
    - intros i. unfold rg_get_name at 1, d_get_name at 1. rewrite FI. unfold rg_get_name, d_get_name.
      destruct (Z.eqb_spec (nth_id o j) i) as [<-|NE].
      + now rewrite EI, name_eqb_refl.
      + destruct (m_find Z.eqb i (d_index (rg_dict r))) as [m|] eqn:Em; [|now destruct (name_eqb [] n)].
        destruct (name_eqb_spec m n) as [->|]; auto. apply (ri_inv _ _ _ I) in Em. congruence.
    - intros s. split.
      + intros Hs m id g Em. destruct (list_eq_dec ascii_dec m n) as [|NE]; auto. exfalso.
        apply (Hs m id g). now rewrite SO.
      + intros Hs m id g Em. destruct (list_eq_dec ascii_dec m n) as [->|NE]; [congruence|].
        rewrite SO in Em by auto. apply NE. eauto.
    - reflexivity.
  Qed.

  Lemma enable_sim k r v : RInv o k r ->
    RInv o k (rg_enable v r) /\ forall n, slot (rg_enable v r) n = match slot r n with Some (id, s, g) => Some (id, s, g_enable v g) | None => None end.
  Proof.
    intros I.
    assert (AR : forall q, nth_error (rg_arr (rg_enable v r)) q = option_map (option_map (fun ob : obj => (fst ob, g_enable v (snd ob)))) (nth_error (rg_arr r) q)).
    { intros q. unfold rg_enable. simpl. apply nth_error_map. }
    assert (AR' : forall q s x, nth_error (rg_arr (rg_enable v r)) q = Some (Some (s, x)) -> exists y, nth_error (rg_arr r) q = Some (Some (s, y))).
    { intros q s x H. rewrite AR in H. destruct (nth_error (rg_arr r) q) as [[[s' y]|]|]; simpl in H; try discriminate. injection H as <- <-. eauto. }
    split.
    - constructor; try apply I.
      + intros q s x H. apply AR' in H as (y & H). apply (ri_arr _ _ _ I _ _ _ H).
      + intros n id E. destruct (ri_slot _ _ _ I _ _ E) as (s & g & ES). exists s, (g_enable v g). now rewrite AR, ES.
      + intros p1 p2 s x1 x2 H1 H2. apply AR' in H1 as (y1 & H1). apply AR' in H2 as (y2 & H2). apply (ri_uniq _ _ _ I _ _ _ _ _ H1 H2).
      + unfold rg_enable. simpl. rewrite map_length. apply I.
    - intros n. unfold slot. simpl rg_dict. destruct (m_find name_eqb n (d_dict (rg_dict r))) as [id|]; auto.
      rewrite AR. destruct (nth_error (rg_arr r) (posn step id)) as [[[s g]|]|]; reflexivity.
  Qed.

  (** pop_all *)
  Definition idx (j : nat) : nat := (j + Z.to_nat (rgo_init o / step))%nat.
  Lemma posn_idx j : posn step (nth_id o j) = (idx j + Z.to_nat ((rgo_init o mod step + step - 1) / step))%nat.
  Proof.
    destruct F as (A & B & _). fold step in B. unfold step at 1. rewrite posn_nth by auto. fold step. unfold idx.
    pose proof (Z.div_mod (rgo_init o) step ltac:(lia)). pose proof (Z.mod_pos_bound (rgo_init o) step ltac:(lia)).
    replace (rgo_init o + step - 1) with (rgo_init o mod step + step - 1 + (rgo_init o / step) * step) by lia.
    rewrite Z.div_add by lia. rewrite Z2Nat.inj_add; [lia| |]; apply Z.div_pos; lia.
  Qed.
  Lemma pos2id_ok k r i : RInv o k r -> (k <= N)%nat -> (i < length (rg_arr r))%nat ->
    d_pos2id i (rg_dict r) = Ok (Z.of_nat i * step + rgo_init o mod step) /\ 0 <= Z.of_nat i * step + rgo_init o mod step /\
    Z.of_nat i * step + rgo_init o mod step + step < bad_id + step.
  Proof.
    intros I Hk Hi. destruct F as (A & B & C). fold step in B, C. unfold d_pos2id. rewrite (ri_step _ _ _ I). fold step.
    destruct (Z.eqb_spec step 0); [lia|]. rewrite (ri_counter _ _ _ I). unfold nth_id. fold step.
    replace (rgo_init o + step * Z.of_nat k) with (rgo_init o + Z.of_nat k * step) by lia. rewrite Z_mod_plus_full.
    pose proof (ri_len _ _ _ I) as RL. fold step in RL. rewrite posn_idx in RL. unfold idx in RL.
    pose proof (Z.div_mod (rgo_init o) step ltac:(lia)). pose proof (Z.mod_pos_bound (rgo_init o) step ltac:(lia)).
    set (q := rgo_init o / step) in *. set (m := rgo_init o mod step) in *.
    assert (Q : 0 <= q) by (apply Z.div_pos; lia).
    assert (E01 : (m + step - 1) / step < 2) by (apply Z.div_lt_upper_bound; lia).
    assert (BI : Z.of_nat i <= Z.of_nat k + q + 1) by lia.
    assert (Z.of_nat i * step <= (Z.of_nat k + q + 1) * step) by (apply Z.mul_le_mono_nonneg_r; lia).
    assert (Z.of_nat k * step <= Z.of_nat N * step) by (apply Z.mul_le_mono_nonneg_r; lia).
    unfold u64. rewrite Z.mod_small by nia. unfold bad_id. split; auto. split; nia.
  Qed.
  Lemma pop_index k r i : RInv o k r -> (k <= N)%nat -> (i < length (rg_arr r))%nat ->
    exists id, d_pos2id i (rg_dict r) = Ok id /\
      ((rg_get id r = Ok None /\ forall n j, m_find name_eqb n (d_dict (rg_dict r)) = Some (nth_id o j) -> idx j <> i) \/
       (exists n j s g, id = nth_id o j /\ idx j = i /\ m_find name_eqb n (d_dict (rg_dict r)) = Some id /\
          nth_error (rg_arr r) (posn step id) = Some (Some (s, g)) /\ rg_get id r = Ok (Some (posn step id, (s, g))))).
  Proof.
    intros I Hk Hi. destruct (pos2id_ok k r i I Hk Hi) as (E & B1 & B2).
    eexists; split; [exact E|]. set (id := _ + _) in *.
    assert (IJ : forall j, idx j = i -> nth_id o j = id).
    { intros j Ej. unfold idx in Ej. destruct F as (A & B & C). fold step in B.
      pose proof (Z.div_mod (rgo_init o) step ltac:(lia)). pose proof (Z.div_pos (rgo_init o) step ltac:(lia) ltac:(lia)).
      unfold id, nth_id. fold step. rewrite <- Ej. rewrite Nat2Z.inj_add, Z2Nat.id by lia. nia. }
    assert (G : forall pos ob, rg_get id r = Ok (Some (pos, ob)) -> exists n j, id = nth_id o j /\ idx j = i /\ m_find name_eqb n (d_dict (rg_dict r)) = Some id).
    { intros pos [s g] EG. unfold rg_get in EG. destruct (id =? bad_id); [discriminate|].
      unfold d_id2pos in EG. rewrite (ri_step _ _ _ I) in EG. fold step in EG. destruct (Z.eqb_spec step 0); [discriminate|]. cbn [bind] in EG.
      destruct (nth_error (rg_arr r) _) as [[ob|]|] eqn:EN; try discriminate. injection EG as EP ->.
      destruct (ri_arr _ _ _ I _ _ _ EN) as (_ & n' & id' & E1 & E2). fold step in E2.
      destruct (ri_live _ _ _ I _ _ E1) as (j & Hj & ->). exists n', j.
      assert (IX : idx j = i).
      { rewrite posn_idx in E2. pose proof (id_range j ltac:(lia)). pose proof step_pos as SP.
        assert (BB : 0 <= rgo_init o mod step < step) by (apply Z.mod_pos_bound; lia).
        assert (E3 : (u64 (id + step - 1)) / step = Z.of_nat i + (rgo_init o mod step + step - 1) / step \/
                     (u64 (id + step - 1)) / step = 0).
        { destruct (Z_lt_dec (id + step - 1) two64).
          - left. unfold u64. rewrite Z.mod_small by lia. unfold id.
            replace (Z.of_nat i * step + rgo_init o mod step + step - 1) with (rgo_init o mod step + step - 1 + Z.of_nat i * step) by lia.
            rewrite Z.div_add by lia. lia.
          - right. unfold u64. assert (HS : step < two64). { destruct F as (A & B & C). fold step in C. nia. }
            replace (id + step - 1) with ((id + step - 1 - two64) + 1 * two64) by lia. rewrite Z_mod_plus_full.
            unfold bad_id in *. rewrite Z.mod_small by lia. apply Z.div_small. lia. }
        destruct E3 as [E3|E3]; rewrite E3 in E2.
        - rewrite Z2Nat.inj_add in E2; [|lia|apply Z.div_pos; lia]. lia.
        - exfalso. rewrite <- posn_idx in E2. simpl in E2. assert (0 < j)%nat by lia.
          rewrite posn_idx in E2. unfold idx in E2. lia. }
      split; [symmetry; auto|]. split; auto. now rewrite <- (IJ j IX). }
    destruct (rg_get id r) as [[[pos [s g]]|]| |] eqn:EG.
    - right. destruct (G _ _ eq_refl) as (n & j & E1 & E2 & E3).
      destruct (rg_get_live k r n id I Hk E3) as (s' & g' & E4 & E5). rewrite EG in E5. injection E5 as -> -> ->.
      exists n, j, s', g'. auto.
    - left. split; auto. intros n j E1 E2. rewrite (IJ j E2) in E1. destruct (rg_get_live k r n id I Hk E1) as (s' & g' & E4 & E5). congruence.
    - exfalso. unfold rg_get, d_id2pos in EG. rewrite (ri_step _ _ _ I) in EG. fold step in EG. pose proof step_pos.
      destruct (id =? bad_id); [discriminate|]. destruct (Z.eqb_spec step 0); [lia|]. cbn [bind] in EG.
      destruct (nth_error _ _) as [[]|]; discriminate.
    - exfalso. unfold rg_get, d_id2pos in EG. rewrite (ri_step _ _ _ I) in EG. fold step in EG. pose proof step_pos.
      destruct (id =? bad_id); [discriminate|]. destruct (Z.eqb_spec step 0); [lia|]. cbn [bind] in EG.
      destruct (nth_error _ _) as [[]|]; discriminate.
  Qed.

  (** One name is popped. *)
  Definition popped_one (f : bool) (c : Z) (g : agg) : outcome (option adata * agg) :=
    '(_, a1) <- g_call ne (GoSeparate 0 false f c) g ;;
    '(r, a2) <- g_call ne (if f then GoForcePop else GoPop) a1 ;; Ok (out_ptr r, a2).
  Lemma m_find_none_in {V} n (l : list (name * V)) : m_find name_eqb n l = None <-> ~ In n (map fst l).
  Proof.
    induction l as [|[m v] l IH]; simpl; [tauto|]. destruct (name_eqb_spec n m) as [->|NE].
    - split; [discriminate|tauto].
    - rewrite IH. split; intros H; [intros [E|E]; [congruence|tauto]|tauto].
  Qed.
  Lemma pop_loop_spec f clk : forall is k r l r', NoDup is -> RInv o k r -> (k <= N)%nat ->
    Forall (fun i => (i < length (rg_arr r))%nat) is -> rg_pop_loop ne f clk is r = Ok (l, r') ->
    RInv o k r' /\ same_flags r r' /\ rg_dict r' = rg_dict r /\ length (rg_arr r') = length (rg_arr r) /\ rg_next r' = rg_next r /\
    NoDup (map fst l) /\
    (forall n a, In (n, a) l -> exists j, m_find name_eqb n (d_dict (rg_dict r)) = Some (nth_id o j) /\ In (idx j) is) /\
    forall n, match slot r n with
      | None => slot r' n = None /\ m_find name_eqb n l = None
      | Some (id, s, g) => exists j, id = nth_id o j /\
          (In (idx j) is -> exists g', slot r' n = Some (id, s, g') /\ popped_one f (clk n) g = Ok (m_find name_eqb n l, g')) /\
          (~ In (idx j) is -> slot r' n = slot r n /\ m_find name_eqb n l = None)
      end.
  Proof.
    induction is as [|i is IH]; intros k r l r' ND I Hk B E; cbn [rg_pop_loop] in E.
    { injection E as <- <-. split; auto. split; [split; reflexivity|]. split; auto. split; auto. split; auto. split; [constructor|]. split; [intros n a []|].
      intros n. destruct (slot r n) as [[[id s] g]|] eqn:ES; auto.
      unfold slot in ES. destruct (m_find name_eqb n (d_dict (rg_dict r))) as [id'|] eqn:EN; [|discriminate].
      destruct (ri_live _ _ _ I _ _ EN) as (j & _ & EJ). exists j. destruct (nth_error _ _) as [[[]|]|]; try discriminate. injection ES as -> -> ->.
      split; auto. split; [intros []|]. auto. }
    inversion ND as [|? ? NI ND']; subst. inversion B as [|? ? Bi B']; subst.
    destruct (pop_index k r i I Hk Bi) as (id & EP & CASES). rewrite EP in E. cbn [bind] in E.
    destruct CASES as [[EG NL]|(n0 & j0 & s0 & g0 & Ej0 & IX & EN0 & ES0 & EG)]; rewrite EG in E; cbn [bind] in E.
    - destruct (rg_pop_loop ne f clk is r) as [[l2 r2]| |] eqn:EL; cbn [bind] in E; try discriminate. injection E as <- <-.
      destruct (IH k r l2 r2 ND' I Hk B' EL) as (I2 & FL & D2 & L2 & N2 & ND2 & IN2 & SL2). simpl app.
      split; auto. split; auto. split; auto. split; auto. split; auto. split; auto. split.
      { intros n a H. destruct (IN2 n a H) as (j & A1 & A2). exists j. split; auto. now right. }
      intros n. specialize (SL2 n). destruct (slot r n) as [[[idn s] g]|] eqn:ES; auto.
      destruct SL2 as (j & EJ & S1 & S2). exists j. split; auto.
      assert (idx j <> i).
      { apply (NL n). unfold slot in ES. destruct (m_find name_eqb n (d_dict (rg_dict r))); [|discriminate].
        destruct (nth_error _ _) as [[[]|]|]; try discriminate. injection ES as -> -> ->. congruence. }
      split; [intros [X|X]; [congruence|auto]|]. intros X. apply S2. intros Y. apply X. now right.
    - assert (GN : rg_get_name id r = n0) by (unfold rg_get_name, d_get_name; apply (ri_inv _ _ _ I) in EN0; now rewrite EN0).
      rewrite GN in E.
      destruct (g_call ne (GoSeparate 0 false f (clk n0)) g0) as [[o1 g1]| |] eqn:E1; cbn [bind] in E; try discriminate.
      destruct (g_call ne (if f then GoForcePop else GoPop) g1) as [[o2 g2]| |] eqn:E2; cbn [bind] in E; try discriminate.
      destruct (set_slot k r n0 id s0 g0 g2 I EN0 ES0) as (I1 & SN & SO). set (r1 := rg_set _ _ _) in *.
      destruct (rg_pop_loop ne f clk is r1) as [[l2 r2]| |] eqn:EL; cbn [bind] in E; try discriminate. injection E as <- <-.
      assert (LR : length (rg_arr r1) = length (rg_arr r)) by (unfold r1; simpl; apply set_nth_length).
      destruct (IH k r1 l2 r2 ND' I1 Hk ltac:(now rewrite LR) EL) as (I2 & FL & D2 & L2 & N2 & ND2 & IN2 & SL2).
      assert (NB : ~ In n0 (map fst l2)).
      { intros X. apply in_map_iff in X as ([m a] & EM & X). simpl in EM. subst m. destruct (IN2 _ _ X) as (j & A1 & A2).
        change (rg_dict r1) with (rg_dict r) in A1. assert (A3 : nth_id o j = nth_id o j0) by congruence. apply nth_id_inj in A3; [|apply F]. subst j. congruence. }
      split; auto. split; auto. split; auto. split; [lia|]. split; auto. split.
      { destruct (out_ptr o2); simpl; auto. constructor; auto. }
      split.
      { intros n a H. apply in_app_or in H as [H|H].
        - destruct (out_ptr o2); [|destruct H]. destruct H as [H|[]]. inversion H; subst n a. exists j0. rewrite <- Ej0. split; auto. now left.
        - destruct (IN2 _ _ H) as (j & A1 & A2). exists j. split; auto. now right. }
      intros n. destruct (list_eq_dec ascii_dec n n0) as [->|NE].
      + specialize (SL2 n0). rewrite SN in SL2. destruct SL2 as (j & EJ & _ & S2).
        assert (SL0 : slot r n0 = Some (id, s0, g0)) by (unfold slot; now rewrite EN0, ES0). rewrite SL0.
        exists j. split; auto. assert (j = j0) by (apply (nth_id_inj o); [apply F|congruence]). subst j.
        rewrite IX in S2. destruct (S2 NI) as [S3 S4]. rewrite IX. split; [|intros X; exfalso; apply X; now left].
        intros _. exists g2. rewrite S3. split; auto. unfold popped_one. rewrite E1. cbn [bind]. rewrite E2. cbn [bind]. do 2 f_equal.
        destruct (out_ptr o2); simpl; [now rewrite name_eqb_refl|auto].
      + specialize (SL2 n). rewrite (SO n NE) in SL2.
        assert (MF : m_find name_eqb n ((match out_ptr o2 with Some a => [(n0, a)] | None => [] end) ++ l2) = m_find name_eqb n l2).
        { destruct (out_ptr o2); auto. simpl. destruct (name_eqb_spec n n0); congruence. }
        rewrite MF. destruct (slot r n) as [[[idn s] g]|] eqn:ES; auto.
        destruct SL2 as (j & EJ & S1 & S2). exists j. split; auto.
        assert (j <> j0).
        { intros ->. apply NE. unfold slot in ES. destruct (m_find name_eqb n (d_dict (rg_dict r))) as [i1|] eqn:EN; [|discriminate].
          destruct (nth_error (rg_arr r) (posn step i1)) as [[[]|]|]; try discriminate. injection ES as -> -> ->.
          apply (ri_inv _ _ _ I) in EN, EN0. congruence. }
        assert (idx j <> i) by (unfold idx in *; lia).
        split; [intros [X|X]; [congruence|auto]|]. intros X. apply S2. intros Y. apply X. now right.
  Qed.

  Lemma pop_all_spec f clk k r l r' : RInv o k r -> (k <= N)%nat -> rg_pop_all ne f clk r = Ok (l, r') ->
    RInv o k r' /\ same_flags r r' /\ rg_dict r' = rg_dict r /\ rg_next r' = rg_next r /\ NoDup (map fst l) /\
    forall n, match slot r n with
      | None => slot r' n = None /\ m_find name_eqb n l = None
      | Some (id, s, g) => exists g', slot r' n = Some (id, s, g') /\ popped_one f (clk n) g = Ok (m_find name_eqb n l, g')
      end.
  Proof.
    intros I Hk E. unfold rg_pop_all in E.
    destruct (pop_loop_spec f clk (seq 0 (length (rg_arr r))) k r l r' (seq_NoDup _ _) I Hk) as (A1 & A2 & A3 & _ & A5 & A6 & _ & A8); auto.
    { apply Forall_forall. intros x Hx. apply in_seq in Hx. lia. }
    split; auto. split; auto. split; auto. split; auto. split; auto.
    intros n. specialize (A8 n). destruct (slot r n) as [[[id s] g]|] eqn:ES; auto.
    destruct A8 as (j & EJ & S1 & _). apply S1. apply in_seq. split; [lia|]. simpl.
    unfold slot in ES. destruct (m_find name_eqb n (d_dict (rg_dict r))) as [i0|] eqn:EN; [|discriminate].
    destruct (nth_error (rg_arr r) (posn step i0)) as [[[s1 g1]|]|] eqn:E1; try discriminate. injection ES as -> -> ->.
    apply nth_error_lt in E1. rewrite EJ, posn_idx in E1. lia.
  Qed.

  Definition cell_popped f c n r l r' : Prop :=
    cell_do ne (rgo_agg o) (CoPopAll f c) (cellof r n) = Ok (CPopped (m_find name_eqb n l), cellof r' n).
  Lemma pop_all_cell f clk k r l r' n : RInv o k r -> (k <= N)%nat -> rg_pop_all ne f clk r = Ok (l, r') ->
    cell_popped f (clk n) n r l r'.
  Proof.
    intros I Hk E. destruct (pop_all_spec f clk k r l r' I Hk E) as (A1 & [A2 A2'] & _ & _ & _ & A8).
    specialize (A8 n). unfold cell_popped, cellof. destruct (slot r n) as [[[id s] g]|].
    - destruct A8 as (g' & S1 & S2). rewrite S1, A2, A2'. unfold popped_one in S2. cbn [cell_do cl_agg].
      destruct (g_call ne (GoSeparate _ _ _ _) g) as [[o1 g1]| |]; cbn [bind] in *; try discriminate.
      destruct (g_call ne (if f then _ else _) g1) as [[o2 g2]| |]; cbn [bind] in *; try discriminate. injection S2 as -> ->. reflexivity.
    - destruct A8 as (S1 & S2). rewrite S1, S2, A2, A2'. reflexivity.
  Qed.

  (** Everything together: one call of the registry. *)
  Lemma get_name_of k r id n : RInv o k r -> m_find name_eqb n (d_dict (rg_dict r)) = Some id -> rg_get_name id r = n.
  Proof. intros I E. unfold rg_get_name, d_get_name. apply (ri_inv _ _ _ I) in E. now rewrite E. Qed.
  Lemma get_none k r id : RInv o k r -> m_find Z.eqb id (d_index (rg_dict r)) = None -> rg_get_name id r = [].
  Proof. intros I E. unfold rg_get_name, d_get_name. now rewrite E. Qed.
  Lemma get_bad r : rg_get bad_id r = Ok None.
  Proof. reflexivity. Qed.
  Lemma name_bad k r : RInv o k r -> (k <= N)%nat -> rg_get_name bad_id r = [].
  Proof.
    intros I Hk. unfold rg_get_name, d_get_name. destruct (m_find Z.eqb bad_id _) as [n|] eqn:E; auto.
    apply (ri_inv _ _ _ I) in E. destruct (ri_live _ _ _ I _ _ E) as (j & Hj & EJ). pose proof (id_range j ltac:(lia)). pose proof step_pos. lia.
  Qed.

  Lemma do_sim k r op out r' : RInv o k r -> (k <= N)%nat -> rg_do ne op r = Ok (out, r') -> clean r op ->
    exists k', (k <= k' <= S k)%nat /\ RInv o k' r' /\
      forall n, n <> [] -> match addressed n r op with
        | Some c => cell_do ne (rgo_agg o) c (cellof r n) = Ok (view n out, cellof r' n)
        | None => cellof r' n = cellof r n
        end.
  Proof.
    intros I Hk E C. destruct op as [e m now|id g|e m d c1 c2|f clk|v|v|m|id|id h|e m h now|p x c1 c2]; simpl rg_do in E.
    - destruct (rg_create ne e m now r) as [[id r1]| |] eqn:EC; cbn [bind] in E; try discriminate. injection E as <- <-.
      destruct (create_sim k r e m now id r1 I Hk EC) as [C1 C2]. destruct m as [|a m].
      + destruct (C1 eq_refl) as [-> ->]. exists k. split; [lia|]. split; auto. intros n HN. simpl.
        destruct (name_eqb_spec [] n); auto. congruence.
      + destruct (C2 ltac:(discriminate)) as (k' & g1 & Hk' & I' & FL & _ & SO & CC & _). exists k'. split; auto. split; auto.
        intros n HN. simpl addressed. destruct (name_eqb_spec (a :: m) n) as [<-|NE].
        * cbn [cell_do]. rewrite CC. reflexivity.
        * apply cellof_same; auto.
    - destruct (rg_call ne id g r) as [[o1 r1]| |] eqn:EC; cbn [bind] in E; try discriminate. injection E as <- <-.
      destruct (call_sim k r id g o1 r1 I Hk EC C) as (I' & FL & _ & SL). exists k. split; [lia|]. split; auto.
      intros n HN. specialize (SL n HN). simpl addressed. destruct (name_eqb _ n); [apply SL|apply cellof_same; auto].
    - unfold rg_add_name in E.
      destruct (rg_create ne e m (ri_ts (rd_info d)) r) as [[id r1]| |] eqn:EC; cbn [bind] in E; try discriminate.
      destruct (rg_call ne id (GoAdd (SmRed d) c1 c2) r1) as [[o1 r2]| |] eqn:EK; cbn [bind] in E; try discriminate. injection E as <- <-.
      destruct (create_sim k r e m _ id r1 I Hk EC) as [C1 C2]. destruct m as [|a m].
      + destruct (C1 eq_refl) as [-> ->]. unfold rg_call in EK. rewrite get_bad in EK. cbn [bind] in EK. injection EK as <- <-.
        exists k. split; [lia|]. split; auto. intros n HN. simpl. destruct (name_eqb_spec [] n); auto. congruence.
      + destruct (C2 ltac:(discriminate)) as (k' & g1 & Hk' & I' & FL & EN & SO & CC & (s & SL) & _).
        pose proof (get_name_of k' r1 id _ I' EN) as GN.
        assert (EG : exists g2, g_call ne (GoAdd (SmRed d) c1 c2) g1 = Ok (o1, g2) /\ r2 = rg_set (posn step id) (Some (s, g2)) r1 /\
                     nth_error (rg_arr r1) (posn step id) = Some (Some (s, g1))).
        { unfold slot in SL. rewrite EN in SL. destruct (nth_error (rg_arr r1) (posn step id)) as [[[s1 g1']|]|] eqn:EA; try discriminate.
          injection SL as -> ->. unfold rg_call in EK. unfold rg_get in EK.
          destruct (ri_live _ _ _ I' _ _ EN) as (j & Hj & ->). pose proof (id_range j ltac:(lia)). pose proof step_pos.
          destruct (Z.eqb_spec (nth_id o j) bad_id); [lia|].
          rewrite (id2pos_ok k' r1 j I') in EK by lia. cbn [bind] in EK. rewrite EA in EK. cbn [bind] in EK.
          destruct (g_call ne (GoAdd (SmRed d) c1 c2) g1) as [[o2 g2]| |]; cbn [bind] in EK; try discriminate. injection EK as <- <-. eauto. }
        destruct EG as (g2 & EG1 & -> & EA).
        destruct (set_slot k' r1 (a :: m) id s g1 g2 I' EN EA) as (I2 & SN2 & SO2).
        exists k'. split; auto. split; auto. intros n HN. simpl addressed. destruct (name_eqb_spec (a :: m) n) as [<-|NE].
        * cbn [cell_do]. rewrite CC. cbn [bind]. rewrite EG1. cbn [bind]. simpl view. unfold cellof at 2. rewrite SN2.
          unfold cell_set. reflexivity.
        * apply cellof_same; [exact FL|]. rewrite SO2 by auto. apply SO. auto.
    - destruct (rg_pop_all ne f clk r) as [[l r1]| |] eqn:EC; cbn [bind] in E; try discriminate. injection E as <- <-.
      destruct (pop_all_spec f clk k r l r1 I Hk EC) as (I' & _). exists k. split; [lia|]. split; auto.
      intros n HN. simpl. apply (pop_all_cell f clk k r l r1 n I Hk EC).
    - injection E as <- <-. destruct (enable_sim k r v I) as [I' SL]. exists k. split; [lia|]. split; auto.
      intros n HN. simpl. unfold cellof. rewrite SL. simpl. destruct (slot r n) as [[[]]|]; reflexivity.
    - injection E as <- <-. exists k. split; [lia|]. split; [destruct I; constructor; auto|]. intros n HN. simpl. reflexivity.
    - destruct (rg_del m r) as [[b r1]| |] eqn:EC; cbn [bind] in E; try discriminate. injection E as <- <-.
      destruct (del_sim k r m b r1 I Hk EC) as (-> & I' & [F1 F2] & SN & SO & _). exists k. split; [lia|]. split; auto.
      intros n HN. simpl addressed. destruct (name_eqb_spec m n) as [<-|NE]; [|apply cellof_same; [split; auto|apply SO; auto]].
      simpl. unfold cellof, cell_set. rewrite SN, F1, F2. reflexivity.
    - injection E as <- <-. exists k. split; [lia|]. split; auto. reflexivity.
    - destruct (rg_pusher id h r); cbn [bind] in E; try discriminate. injection E as <- <-. exists k. split; [lia|]. split; auto. reflexivity.
    - unfold rg_pusher_name in E. destruct (rg_create ne e m now r) as [[id r1]| |] eqn:EC; cbn [bind] in E; try discriminate.
      destruct (rg_pusher id h r1) as [p| |]; cbn [bind] in E; try discriminate. injection E as <- <-.
      destruct (create_sim k r e m now id r1 I Hk EC) as [C1 C2]. destruct m as [|a m].
      + destruct (C1 eq_refl) as [-> ->]. exists k. split; [lia|]. split; auto. intros n HN. simpl.
        destruct (name_eqb_spec [] n); auto. congruence.
      + destruct (C2 ltac:(discriminate)) as (k' & g1 & Hk' & I' & FL & _ & SO & CC & _). exists k'. split; auto. split; auto.
        intros n HN. simpl addressed. destruct (name_eqb_spec (a :: m) n) as [<-|NE].
        * cbn [cell_do]. rewrite CC. reflexivity.
        * apply cellof_same; auto.
    - destruct (rg_call_pusher ne p x c1 c2 r) as [[l r1]| |] eqn:EC; cbn [bind] in E; try discriminate. injection E as <- <-.
      destruct (push_sim k r p x c1 c2 l r1 I Hk EC) as (I' & FL & _ & _ & SL). exists k. split; [lia|]. split; auto.
      intros n HN. specialize (SL n HN). simpl addressed. rewrite (find_slot k r n I Hk).
      destruct (slot r n) as [[[i s] g]|] eqn:ES; [|apply cellof_same; auto; congruence].
      destruct (s =? rp_obj p)%nat; [exact SL|apply cellof_same; auto; congruence].
  Qed.
End Inv.
