(** A registry some of whose calls failed: without the names that have no aggregator it is a registry none of whose calls failed. *)
From Coq Require Import ZArith List Bool Permutation Lia Arith Ascii.
From Verif Require Import Base ModelTypes ModelAvg ModelReducer SpecReducer ModelSeparator SpecSeparator
  ModelAggregator SpecAggregator ModelRegistry SpecRegistry RegProofs RegFinal ModelFault SpecFault.
Import ListNotations.
Local Open Scope Z_scope.

(** * No failure *)
Lemma create_x_none ne e n now r : rg_create_x ne None e n now r = ('(id, r1) <- rg_create ne e n now r ;; Ok (Some id, r1)).
Proof.
  destruct n as [|a n]; auto. unfold rg_create_x, rg_create, d_create_id_x, d_create_id, rg_init_x.
  destruct (m_find name_eqb (a :: n) (d_dict (rg_dict r))) as [id|].
  - cbv zeta. cbv iota. destruct (d_id2pos id (rg_dict r)) as [pos| |]; cbn [bind]; auto.
    assert (H : forall X Y : outcome (Z * registry), X = Y -> X = Y) by auto. clear H.
    set (K := g <- agg_new _ _ _ _ ;; _). set (K2 := g <- agg_new _ _ _ _ ;; _).
    assert (HK : K = ('(id, r1) <- K2 ;; Ok (Some id, r1))).
    { unfold K, K2. destruct (agg_new _ _ _ _); cbn [bind]; auto. set (gi := if negb _ then _ else _). clearbody gi. destruct gi; reflexivity. }
    destruct (nth_error (rg_arr r) pos) as [[ob|]|]; auto.
  - set (T := match d_free (rg_dict r) with [] => _ | _ => _ end). destruct T as [[id counter] free]. cbv zeta. cbv iota.
    set (d := mk_dict _ _ _ _ _).
    destruct (d_id2pos id d) as [pos| |]; cbn [bind]; auto.
    set (K := g <- agg_new _ _ _ _ ;; _). set (K2 := g <- agg_new _ _ _ _ ;; _).
    assert (HK : K = ('(id, r1) <- K2 ;; Ok (Some id, r1))).
    { unfold K, K2. destruct (agg_new _ _ _ _); cbn [bind]; auto. set (gi := if negb _ then _ else _). clearbody gi. destruct gi; reflexivity. }
    destruct (nth_error (rg_arr r) pos) as [[ob|]|]; auto.
Qed.

(** * Invariant *)
Definition core (r : registry) (d : dict) : registry := mk_registry (rg_opt r) (rg_arr r) d (rg_enabled r) (rg_initializer r) (rg_next r).
Definition occ (o : rgopts) (r : registry) (id : Z) : bool :=
  match nth_error (rg_arr r) (posn (rgo_step o) id) with Some (Some _) => true | _ => false end.
Record XI (o : rgopts) (k : nat) (r : registry) (d : dict) : Prop := {
  x_core : RInv o k (core r d);
  x_step : d_step d = d_step (rg_dict r);
  x_cnt : d_counter d = d_counter (rg_dict r);
  x_fr : d_free d = d_free (rg_dict r);
  x_dict : forall n, m_find name_eqb n (d_dict d) =
     match m_find name_eqb n (d_dict (rg_dict r)) with Some id => if occ o r id then Some id else None | None => None end;
  x_idx : forall id, m_find Z.eqb id (d_index d) = if occ o r id then m_find Z.eqb id (d_index (rg_dict r)) else None;
  x_inv : forall n id, m_find name_eqb n (d_dict (rg_dict r)) = Some id <-> m_find Z.eqb id (d_index (rg_dict r)) = Some n;
  x_noname : m_find name_eqb [] (d_dict (rg_dict r)) = None;
  x_live : forall n id, m_find name_eqb n (d_dict (rg_dict r)) = Some id -> exists j, (1 <= j <= k)%nat /\ id = nth_id o j;
  x_free : forall id, In id (d_free (rg_dict r)) ->
     (exists j, (1 <= j <= k)%nat /\ id = nth_id o j) /\ m_find Z.eqb id (d_index (rg_dict r)) = None }.

Lemma XI_new o : XI o 0 (rg_new o) (d_new (rgo_init o) (rgo_step o)).
Proof.
  constructor; simpl; auto; try discriminate; try tauto.
  - apply RInv_new.
  - intros id. now destruct (occ o (rg_new o) id).
  - split; discriminate.
Qed.

Lemma core_get r d id : d_step d = d_step (rg_dict r) -> rg_get id (core r d) = rg_get id r.
Proof. intros E. unfold rg_get, d_id2pos, core. simpl. now rewrite E. Qed.
Lemma core_set pos x r d : rg_set pos x (core r d) = core (rg_set pos x r) d.
Proof. reflexivity. Qed.
Lemma occ_true o r id : occ o r id = true -> exists s g, nth_error (rg_arr r) (posn (rgo_step o) id) = Some (Some (s, g)).
Proof. unfold occ. destruct (nth_error _ _) as [[[s g]|]|]; try discriminate. eauto. Qed.
Lemma occ_some o r id s g : nth_error (rg_arr r) (posn (rgo_step o) id) = Some (Some (s, g)) -> occ o r id = true.
Proof. unfold occ. now intros ->. Qed.
Lemma occ_false o r id : occ o r id = false -> forall x, nth_error (rg_arr r) (posn (rgo_step o) id) <> Some (Some x).
Proof. unfold occ. intros H x E. now rewrite E in H. Qed.
Lemma occ_set o r pos x y id : nth_error (rg_arr r) pos = Some (Some x) -> occ o (rg_set pos (Some y) r) id = occ o r id.
Proof.
  intros E. unfold occ. simpl. destruct (Nat.eq_dec pos (posn (rgo_step o) id)) as [<-|NE].
  - rewrite set_nth_same by (now apply nth_error_lt in E). now rewrite E.
  - now rewrite set_nth_other.
Qed.
Lemma XI_arr o k r r' d : XI o k r d -> rg_dict r' = rg_dict r -> RInv o k (core r' d) -> (forall id, occ o r' id = occ o r id) -> XI o k r' d.
Proof.
  intros I D R OC. destruct I. constructor; auto; rewrite D; auto.
  - intros n. rewrite x_dict0. destruct (m_find name_eqb n (d_dict (rg_dict r))); auto. now rewrite OC.
  - intros id. rewrite x_idx0. now rewrite OC.
Qed.

Section Inv.
  Variable ne : nat -> list Z -> list Z.
  Variable o : rgopts.
  Variable N : nat.
  Hypothesis F : fits o N.
  Let step := rgo_step o.

  (** Names with an aggregator. *)
  Lemma core_name k r d id : XI o k r d -> occ o r id = true -> rg_get_name id (core r d) = rg_get_name id r.
  Proof. intros I H. unfold rg_get_name, d_get_name, core. simpl. now rewrite (x_idx _ _ _ _ I), H. Qed.
  Lemma x_inj k r d n m id : XI o k r d -> m_find name_eqb n (d_dict (rg_dict r)) = Some id -> m_find name_eqb m (d_dict (rg_dict r)) = Some id -> n = m.
  Proof. intros I A B. apply (x_inv _ _ _ _ I) in A, B. congruence. Qed.
  Lemma x_pos k r d n m i j : XI o k r d -> m_find name_eqb n (d_dict (rg_dict r)) = Some i -> m_find name_eqb m (d_dict (rg_dict r)) = Some j ->
    posn step i = posn step j -> n = m /\ i = j.
  Proof.
    intros I A B P. destruct (x_live _ _ _ _ I _ _ A) as (a & _ & ->). destruct (x_live _ _ _ _ I _ _ B) as (b & _ & ->).
    apply (posn_inj o N F) in P. subst b. split; auto. eapply x_inj; eauto.
  Qed.
  Lemma x_id2pos k r d j : XI o k r d -> (j <= S N)%nat -> d_id2pos (nth_id o j) (rg_dict r) = Ok (posn step (nth_id o j)).
  Proof.
    intros I H. pose proof (id2pos_ok o N F k (core r d) j (x_core _ _ _ _ I) H) as E. unfold d_id2pos in *. simpl in E.
    now rewrite (x_step _ _ _ _ I) in E.
  Qed.
  Lemma find_core k r d n : XI o k r d -> (k <= N)%nat -> find_name n r = slot o (core r d) n.
  Proof.
    intros I Hk. unfold find_name, slot. simpl. rewrite (x_dict _ _ _ _ I).
    destruct (m_find name_eqb n (d_dict (rg_dict r))) as [id|] eqn:E; auto.
    destruct (x_live _ _ _ _ I _ _ E) as (j & Hj & ->). unfold rg_get. pose proof (id_range o N F j ltac:(lia)) as R. pose proof (step_pos o N F) as SP.
    destruct (Z.eqb_spec (nth_id o j) bad_id); [lia|]. rewrite (x_id2pos k r d j I) by lia. cbn [bind]. unfold occ. fold step.
    destruct (nth_error (rg_arr r) (posn step (nth_id o j))) as [[[s g]|]|] eqn:EA; auto. fold step. now rewrite EA.
  Qed.
  Lemma slot_core k r d n id s g : XI o k r d -> (slot o (core r d) n = Some (id, s, g) <->
    m_find name_eqb n (d_dict (rg_dict r)) = Some id /\ nth_error (rg_arr r) (posn step id) = Some (Some (s, g))).
  Proof.
    intros I. unfold slot. simpl. rewrite (x_dict _ _ _ _ I). destruct (m_find name_eqb n (d_dict (rg_dict r))) as [i|]; [|split; [discriminate|intros []; discriminate]].
    destruct (occ o r i) eqn:EO.
    - destruct (occ_true _ _ _ EO) as (s' & g' & EA). fold step in EA. fold step. rewrite EA. split.
      + intros H. injection H as -> -> ->. auto.
      + intros [H1 H2]. injection H1 as ->. rewrite EA in H2. injection H2 as -> ->. auto.
    - split; [discriminate|]. intros [H1 H2]. injection H1 as ->. exfalso. exact (occ_false _ _ _ EO _ H2).
  Qed.
  Lemma registered_core k r d n id s g : XI o k r d -> (k <= N)%nat -> (registered r n id s g <-> n <> [] /\ slot o (core r d) n = Some (id, s, g)).
  Proof.
    intros I Hk. split.
    - intros (HN & GN & pos & EG). split; auto. apply (slot_core k r d n id s g I).
      unfold rg_get_name, d_get_name in GN. destruct (m_find Z.eqb id (d_index (rg_dict r))) as [n'|] eqn:E; [|congruence]. subst n'.
      apply (x_inv _ _ _ _ I) in E. split; auto. destruct (x_live _ _ _ _ I _ _ E) as (j & Hj & ->).
      unfold rg_get in EG. destruct (_ =? bad_id); [discriminate|]. rewrite (x_id2pos k r d j I) in EG by lia. cbn [bind] in EG.
      destruct (nth_error (rg_arr r) (posn step (nth_id o j))) as [[ob|]|]; try discriminate. injection EG as _ ->. auto.
    - intros (HN & SL). apply (slot_core k r d n id s g I) in SL as [A B]. split; auto. split.
      + unfold rg_get_name, d_get_name. apply (x_inv _ _ _ _ I) in A. now rewrite A.
      + destruct (x_live _ _ _ _ I _ _ A) as (j & Hj & ->). exists (posn step (nth_id o j)). unfold rg_get.
        pose proof (id_range o N F j ltac:(lia)) as R. pose proof (step_pos o N F) as SP.
        destruct (Z.eqb_spec (nth_id o j) bad_id); [lia|]. rewrite (x_id2pos k r d j I) by lia. cbn [bind]. now rewrite B.
  Qed.

  (** * Calls that neither create nor delete *)
  Lemma set_core k r d pos x y : XI o k r d -> nth_error (rg_arr r) pos = Some (Some x) -> RInv o k (core (rg_set pos (Some y) r) d) ->
    XI o k (rg_set pos (Some y) r) d.
  Proof. intros I E R. eapply XI_arr; eauto. intros id. eapply occ_set; eauto. Qed.
  Lemma get_occ id r pos ob : rg_get id r = Ok (Some (pos, ob)) -> nth_error (rg_arr r) pos = Some (Some ob).
  Proof. apply get_some. Qed.

  Lemma call_core k r d id op out r' : XI o k r d -> (k <= N)%nat -> rg_call ne id op r = Ok (out, r') ->
    rg_call ne id op (core r d) = Ok (out, core r' d) /\ XI o k r' d.
  Proof.
    intros I Hk E. assert (EC : rg_call ne id op (core r d) = Ok (out, core r' d)).
    { unfold rg_call in *. rewrite core_get by apply I. destruct (rg_get id r) as [[[pos [s g]]|]| |]; cbn [bind] in *; try discriminate.
      - destruct (g_call ne op g) as [[o1 g1]| |]; cbn [bind] in *; try discriminate. injection E as <- <-. reflexivity.
      - injection E as <- <-. reflexivity. }
    split; auto. destruct (call_inv ne o N F k _ id op out _ (x_core _ _ _ _ I) Hk EC) as (R & _).
    unfold rg_call in E. destruct (rg_get id r) as [[[pos [s g]]|]| |] eqn:EG; cbn [bind] in *; try discriminate.
    - destruct (g_call ne op g) as [[o1 g1]| |]; cbn [bind] in *; try discriminate. injection E as <- <-.
      eapply set_core; eauto. eapply get_occ; eauto.
    - injection E as <- <-. auto.
  Qed.
  Lemma push_core k r d p x c1 c2 l r' : XI o k r d -> (k <= N)%nat -> rg_call_pusher ne p x c1 c2 r = Ok (l, r') ->
    rg_call_pusher ne p x c1 c2 (core r d) = Ok (l, core r' d) /\ XI o k r' d.
  Proof.
    intros I Hk E. assert (EC : rg_call_pusher ne p x c1 c2 (core r d) = Ok (l, core r' d)).
    { unfold rg_call_pusher in *. simpl rg_arr. destruct (find_obj (rp_obj p) (rg_arr r)) as [[pos g]|].
      - destruct (g_call_pusher _ _ g) as [[recs g1]| |]; cbn [bind] in *; try discriminate. injection E as <- <-. reflexivity.
      - injection E as <- <-. reflexivity. }
    split; auto. destruct (push_sim ne o N F k _ p x c1 c2 l _ (x_core _ _ _ _ I) Hk EC) as (R & _).
    unfold rg_call_pusher in E. destruct (find_obj (rp_obj p) (rg_arr r)) as [[pos g]|] eqn:EF.
    - destruct (g_call_pusher _ _ g) as [[recs g1]| |]; cbn [bind] in *; try discriminate. injection E as <- <-.
      eapply set_core; eauto. apply find_obj_some. eauto.
    - injection E as <- <-. auto.
  Qed.
  Lemma enable_core k r d v : XI o k r d -> rg_enable v (core r d) = core (rg_enable v r) d /\ XI o k (rg_enable v r) d.
  Proof.
    intros I. split; [reflexivity|]. destruct (enable_sim o k (core r d) v (x_core _ _ _ _ I)) as (R & _).
    eapply XI_arr; eauto. intros id. unfold occ, rg_enable. simpl. rewrite nth_error_map.
    destruct (nth_error (rg_arr r) _) as [[ob|]|]; reflexivity.
  Qed.
  Lemma init_core k r d v : XI o k r d -> XI o k (rg_set_initializer v r) d.
  Proof. intros I. eapply XI_arr; eauto. destruct (x_core _ _ _ _ I). constructor; auto. Qed.

  (** The loop of pop_all up to where it throws. *)
  Lemma pop_x_split f clk : forall is i r l x r', rg_pop_loop_x ne i f clk is r = Ok (l, x, r') ->
    match x with
    | None => rg_pop_loop ne f clk is r = Ok (l, r')
    | Some p => exists is1 j is2 r1 id pos s g, is = is1 ++ j :: is2 /\ rg_pop_loop ne f clk (is1 ++ [j]) r = Ok (l ++ [p], r') /\
        d_pos2id j (rg_dict r) = Ok id /\ rg_dict r1 = rg_dict r /\ rg_get id r1 = Ok (Some (pos, (s, g))) /\ fst p = rg_get_name id r /\
        rg_pop_loop ne f clk is1 r = Ok (l, r1)
    end.
  Proof.
    induction is as [|p0 is IH]; intros i r l x r' E; cbn [rg_pop_loop_x] in E.
    - injection E as <- <- <-. reflexivity.
    - destruct (d_pos2id p0 (rg_dict r)) as [id| |] eqn:EP; cbn [bind] in E; try discriminate.
      destruct (rg_get id r) as [q| |] eqn:EG; cbn [bind] in E; try discriminate.
      destruct q as [[pos [s g]]|].
      2: { specialize (IH _ _ _ _ _ E). destruct x as [p|].
           - destruct IH as (is1 & j & is2 & r1 & idj & posj & sj & gj & -> & E1 & E2 & E3 & E4 & E5 & E6).
             exists (p0 :: is1), j, is2, r1, idj, posj, sj, gj. split; auto. split; [|split; [exact E2|split; [exact E3|split; [exact E4|split; [exact E5|]]]]].
             + cbn [app rg_pop_loop]. rewrite EP. cbn [bind]. rewrite EG. cbn [bind]. rewrite E1. reflexivity.
             + cbn [rg_pop_loop]. rewrite EP. cbn [bind]. rewrite EG. cbn [bind]. rewrite E6. reflexivity.
           - cbn [rg_pop_loop]. rewrite EP. cbn [bind]. rewrite EG. cbn [bind]. rewrite IH. reflexivity. }
      destruct (g_call ne (GoSeparate _ _ _ _) g) as [[o1 g1]| |] eqn:EA; cbn [bind] in E; try discriminate.
      destruct (g_call ne (if f then _ else _) g1) as [[o2 g2]| |] eqn:EB; cbn [bind] in E; try discriminate. cbv zeta in E.
      assert (STEP : forall t l2 r2, rg_pop_loop ne f clk t (rg_set pos (Some (s, g2)) r) = Ok (l2, r2) ->
        rg_pop_loop ne f clk (p0 :: t) r = Ok ((match out_ptr o2 with Some a => [(rg_get_name id r, a)] | None => [] end) ++ l2, r2)).
      { intros t l2 r2 EL. cbn [rg_pop_loop]. rewrite EP. cbn [bind]. rewrite EG. cbn [bind]. rewrite EA. cbn [bind]. rewrite EB. cbn [bind].
        rewrite EL. reflexivity. }
      destruct (out_ptr o2) as [a|] eqn:EO; [destruct i as [|i']|].
      + injection E as <- <- <-. exists [], p0, is, r, id, pos, s, g. split; auto. split; [|split; [auto|split; [auto|split; [auto|split; auto]]]].
        cbn [app]. rewrite (STEP [] [] _ eq_refl). reflexivity.
      + destruct (rg_pop_loop_x ne i' f clk is _) as [[[l2 x2] r2]| |] eqn:EL; cbn [bind] in E; try discriminate. injection E as <- <- <-.
        specialize (IH _ _ _ _ _ EL). destruct x2 as [p|].
        * destruct IH as (is1 & j & is2 & r1 & idj & posj & sj & gj & -> & E1 & E2 & E3 & E4 & E5 & E6).
          exists (p0 :: is1), j, is2, r1, idj, posj, sj, gj. split; auto. split; [|split; [exact E2|split; [exact E3|split; [exact E4|split; [exact E5|]]]]].
          -- cbn [app]. rewrite (STEP _ _ _ E1). reflexivity.
          -- rewrite (STEP _ _ _ E6). reflexivity.
        * rewrite (STEP _ _ _ IH). reflexivity.
      + specialize (IH _ _ _ _ _ E). destruct x as [p|].
        * destruct IH as (is1 & j & is2 & r1 & idj & posj & sj & gj & -> & E1 & E2 & E3 & E4 & E5 & E6).
          exists (p0 :: is1), j, is2, r1, idj, posj, sj, gj. split; auto. split; [|split; [exact E2|split; [exact E3|split; [exact E4|split; [exact E5|]]]]].
          -- cbn [app]. rewrite (STEP _ _ _ E1). reflexivity.
          -- rewrite (STEP _ _ _ E6). reflexivity.
        * rewrite (STEP _ _ _ IH). reflexivity.
  Qed.

  Lemma pos2id_core r d i : d_step d = d_step (rg_dict r) -> d_counter d = d_counter (rg_dict r) -> d_pos2id i d = d_pos2id i (rg_dict r).
  Proof. intros A B. unfold d_pos2id. now rewrite A, B. Qed.
  Lemma loop_core f clk : forall is k r d l r', XI o k r d -> (k <= N)%nat -> Forall (fun i => (i < length (rg_arr r))%nat) is ->
    rg_pop_loop ne f clk is r = Ok (l, r') -> rg_pop_loop ne f clk is (core r d) = Ok (l, core r' d) /\ XI o k r' d.
  Proof.
    induction is as [|i is IH]; intros k r d l r' I Hk B E; cbn [rg_pop_loop] in *.
    { injection E as <- <-. auto. }
    inversion B as [|? ? Bi B']; subst.
    change (rg_dict (core r d)) with d. rewrite (pos2id_core r d) by apply I. change (rg_arr (core r d)) with (rg_arr r) in *.
    destruct (pop_index o N F k (core r d) i (x_core _ _ _ _ I) Hk Bi) as (id0 & EP0 & CASES).
    change (rg_dict (core r d)) with d in EP0. rewrite (pos2id_core r d) in EP0 by apply I. rewrite EP0 in *. cbn [bind] in *.
    rewrite core_get in * by apply I.
    destruct CASES as [[EG _]|(n0 & j0 & s0 & g0 & Ej0 & IX & EN0 & ES0 & EG)]; rewrite EG in *; cbn [bind] in *.
    - destruct (rg_pop_loop ne f clk is r) as [[l2 r2]| |] eqn:EL; cbn [bind] in E; try discriminate. injection E as <- <-.
      destruct (IH k r d l2 r2 I Hk B' EL) as (E2 & I2). rewrite E2. auto.
    - simpl in ES0. assert (OC := occ_some o r id0 s0 g0 ES0). rewrite (core_name k r d id0 I OC).
      destruct (g_call ne (GoSeparate 0 false f _) g0) as [[o1 g1]| |] eqn:E1; cbn [bind] in *; try discriminate.
      destruct (g_call ne (if f then GoForcePop else GoPop) g1) as [[o2 g2]| |] eqn:E2; cbn [bind] in *; try discriminate.
      rewrite core_set.
      destruct (rg_pop_loop ne f clk is (rg_set _ _ r)) as [[l2 r2]| |] eqn:EL; cbn [bind] in *; try discriminate. injection E as <- <-.
      assert (I1 : XI o k (rg_set (posn (rgo_step o) id0) (Some (s0, g2)) r) d).
      { eapply set_core; eauto. rewrite <- core_set. eapply (set_slot o N F k (core r d) n0 id0 s0 g0 g2); eauto. apply I. }
      destruct (IH k _ d l2 r2 I1 Hk) with (2 := EL) as (E3 & I3).
      { simpl. rewrite set_nth_length. auto. }
      rewrite E3. auto.
  Qed.

  (** * Creation *)
  Definition new_id (pick : nat) (d : dict) : Z * Z * list Z :=
    match d_free d with
    | [] => let c := u64 (d_counter d + d_step d) in (c, c, [])
    | f0 :: _ => let id := nth (pick mod length (d_free d))%nat (d_free d) f0 in
                 (id, d_counter d, filter (fun x => negb (x =? id)) (d_free d))
    end.
  Lemma RInv_ids k k' r c fr : RInv o k r -> (k <= k')%nat -> c = nth_id o k' -> (forall i, In i fr -> In i (d_free (rg_dict r))) ->
    let d := rg_dict r in RInv o k' (core r (mk_dict c (d_step d) (d_dict d) (d_index d) fr)).
  Proof.
    intros I L -> S d. destruct I. constructor; simpl; auto.
    - intros n id H. destruct (ri_live n id H) as (j & Hj & ->). exists j. split; auto. lia.
    - intros id H. destruct (ri_free id (S id H)) as [(j & Hj & ->) E]. split; auto. exists j. split; auto. lia.
    - pose proof (posn_mono o k k' ltac:(apply F) ltac:(apply F) L). lia.
  Qed.
  Lemma new_id_spec k r d pick id c fr : XI o k r d -> (k <= N)%nat -> new_id pick (rg_dict r) = (id, c, fr) ->
    exists k' j, (k <= k' <= S k)%nat /\ (1 <= j <= k')%nat /\ id = nth_id o j /\ c = nth_id o k' /\
      m_find Z.eqb id (d_index (rg_dict r)) = None /\ (forall i, In i fr -> In i (d_free (rg_dict r)) /\ i <> id).
  Proof.
    intros I Hk EC. unfold new_id in EC. destruct (d_free (rg_dict r)) as [|f0 fr0] eqn:EF.
    - cbv zeta in EC. injection EC as <- <- <-.
      assert (EI : u64 (d_counter (rg_dict r) + d_step (rg_dict r)) = nth_id o (S k)).
      { rewrite <- (x_cnt _ _ _ _ I), <- (x_step _ _ _ _ I).
        pose proof (ri_counter _ _ _ (x_core _ _ _ _ I)) as X1. pose proof (ri_step _ _ _ (x_core _ _ _ _ I)) as X2. simpl in X1, X2.
        rewrite X1, X2. pose proof (id_range o N F (S k) ltac:(lia)). unfold u64. pose proof (step_pos o N F).
        assert (ES : nth_id o k + rgo_step o = nth_id o (S k)) by (unfold nth_id; lia). rewrite ES. apply Z.mod_small. unfold bad_id in *. lia. }
      rewrite EI. exists (S k), (S k). split; [lia|]. split; [lia|]. split; auto. split; auto. split; [|simpl; tauto].
      destruct (m_find Z.eqb _ _) as [m|] eqn:E; auto. apply (x_inv _ _ _ _ I) in E. destruct (x_live _ _ _ _ I _ _ E) as (j & Hj & EJ).
      apply nth_id_inj in EJ; [lia|apply F].
    - set (id0 := nth (pick mod length (f0 :: fr0)) (f0 :: fr0) f0) in *. cbv zeta in EC. injection EC as <- <- <-.
      assert (II : In id0 (f0 :: fr0)).
      { unfold id0. apply nth_In. apply Nat.mod_upper_bound. simpl. lia. }
      rewrite <- EF in II. destruct (x_free _ _ _ _ I _ II) as ((j & Hj & EJ) & NI).
      exists k, j. split; [lia|]. split; [lia|]. split; auto. split.
      { rewrite <- (x_cnt _ _ _ _ I). apply (ri_counter _ _ _ (x_core _ _ _ _ I)). }
      split; auto. clearbody id0. intros i Hi. change (In i (filter (fun x : Z => negb (x =? id0)) (f0 :: fr0))) in Hi. apply filter_In in Hi as [Hi Hn]. rewrite negb_true_iff, Z.eqb_neq in Hn. auto.
  Qed.
  (** An id is taken and nothing else happens: dict.hpp:38 throws. *)
  Lemma lost_core k r d pick id c fr : XI o k r d -> (k <= N)%nat -> new_id pick (rg_dict r) = (id, c, fr) ->
    exists k', (k <= k' <= S k)%nat /\
      XI o k' (core r (mk_dict c (d_step (rg_dict r)) (d_dict (rg_dict r)) (d_index (rg_dict r)) fr)) (mk_dict c (d_step d) (d_dict d) (d_index d) fr).
  Proof.
    intros I Hk EC. destruct (new_id_spec k r d pick id c fr I Hk EC) as (k' & j & Hk' & Hj & -> & -> & NI & FR).
    exists k'. split; auto. constructor; simpl; try (apply I); auto.
    - apply (RInv_ids k k' (core r d)); [apply I|lia|auto|]. simpl. rewrite (x_fr _ _ _ _ I). intros i Hi. now apply FR.
    - intros n i H. destruct (x_live _ _ _ _ I _ _ H) as (q & Hq & ->). exists q. split; auto. lia.
    - intros i Hi. destruct (x_free _ _ _ _ I _ (proj1 (FR i Hi))) as ((q & Hq & ->) & E). split; auto. exists q. split; auto. lia.
  Qed.
  (** A new name is entered. *)
  Lemma enter_core k r d pick n id c fr : XI o k r d -> (k <= N)%nat -> n <> [] -> m_find name_eqb n (d_dict (rg_dict r)) = None ->
    new_id pick (rg_dict r) = (id, c, fr) ->
    exists k', (k <= k' <= S k)%nat /\
      XI o k' (core r (mk_dict c (d_step (rg_dict r)) (m_insert name_eqb n id (d_dict (rg_dict r))) (m_insert Z.eqb id n (d_index (rg_dict r))) fr))
         (mk_dict c (d_step d) (d_dict d) (d_index d) fr) /\ occ o r id = false /\ m_find Z.eqb id (d_index (rg_dict r)) = None.
  Proof.
    intros I Hk HN EN EC. destruct (new_id_spec k r d pick id c fr I Hk EC) as (k' & j & Hk' & Hj & -> & -> & NI & FR).
    assert (OC : occ o r (nth_id o j) = false).
    { destruct (occ o r (nth_id o j)) eqn:OC; auto. exfalso. destruct (occ_true _ _ _ OC) as (s & g & EA).
      destruct (ri_arr _ _ _ (x_core _ _ _ _ I) _ _ _ EA) as (_ & m & im & E1 & E2). simpl in E1.
      destruct (ri_live _ _ _ (x_core _ _ _ _ I) _ _ E1) as (jm & Hjm & ->). apply (posn_inj o N F) in E2. subst jm.
      apply (ri_inv _ _ _ (x_core _ _ _ _ I)) in E1. simpl in E1. rewrite (x_idx _ _ _ _ I), OC in E1. congruence. }
    exists k'. split; auto. split; [|auto].
    assert (FD : forall m, m_find name_eqb m (m_insert name_eqb n (nth_id o j) (d_dict (rg_dict r))) = if name_eqb m n then Some (nth_id o j) else m_find name_eqb m (d_dict (rg_dict r))).
    { intros m. now apply m_find_insert. }
    assert (FI : forall i, m_find Z.eqb i (m_insert Z.eqb (nth_id o j) n (d_index (rg_dict r))) = if i =? nth_id o j then Some n else m_find Z.eqb i (d_index (rg_dict r))).
    { intros i. now apply m_find_insert. }
    constructor; cbn [core rg_dict rg_opt rg_arr rg_enabled rg_initializer rg_next d_step d_counter d_free d_dict d_index].
    - apply (RInv_ids k k' (core r d)); [apply I|lia|auto|]. simpl. rewrite (x_fr _ _ _ _ I). intros i Hi. now apply FR.
    - apply I.
    - auto.
    - auto.
    - intros m. rewrite FD. destruct (name_eqb_spec m n) as [->|NE].
      + change (occ o (core r _) (nth_id o j)) with (occ o r (nth_id o j)). rewrite OC. rewrite (x_dict _ _ _ _ I), EN. auto.
      + rewrite (x_dict _ _ _ _ I). reflexivity.
    - intros i. rewrite FI, (x_idx _ _ _ _ I). change (occ o (core r _) i) with (occ o r i).
      destruct (Z.eqb_spec i (nth_id o j)) as [->|]; auto. now rewrite OC.
    - intros m i. rewrite FD, FI. destruct (name_eqb_spec m n) as [->|NE], (Z.eqb_spec i (nth_id o j)) as [->|NE'].
      + tauto.
      + split; [congruence|]. intros H. apply (x_inv _ _ _ _ I) in H. congruence.
      + split; [|congruence]. intros H. apply (x_inv _ _ _ _ I) in H. congruence.
      + apply (x_inv _ _ _ _ I).
    - rewrite FD. destruct (name_eqb_spec [] n); [congruence|]. apply I.
    - intros m i. rewrite FD. destruct (name_eqb_spec m n) as [->|NE].
      + intros H. injection H as <-. exists j. auto.
      + intros H. destruct (x_live _ _ _ _ I _ _ H) as (q & Hq & ->). exists q. split; auto. lia.
    - intros i Hi. destruct (x_free _ _ _ _ I _ (proj1 (FR i Hi))) as ((q & Hq & ->) & E). split; [exists q; split; auto; lia|].
      rewrite FI. destruct (Z.eqb_spec (nth_id o q) (nth_id o j)) as [EQ|]; auto. exfalso. apply (proj2 (FR _ Hi)). auto.
  Qed.
  (** The array is enlarged. *)
  Lemma resize_core k r d n id : XI o k r d -> m_find name_eqb n (d_dict (rg_dict r)) = Some id ->
    XI o k (mk_registry (rg_opt r) (resize (S (posn step id)) (rg_arr r)) (rg_dict r) (rg_enabled r) (rg_initializer r) (rg_next r)) d /\
    forall m, slot o (core (mk_registry (rg_opt r) (resize (S (posn step id)) (rg_arr r)) (rg_dict r) (rg_enabled r) (rg_initializer r) (rg_next r)) d) m
              = slot o (core r d) m.
  Proof.
    intros I EN. set (r' := mk_registry _ _ _ _ _ _).
    assert (AR : forall q x, nth_error (rg_arr r') q = Some (Some x) <-> nth_error (rg_arr r) q = Some (Some x)).
    { intros q x. unfold r'. simpl. apply resize_some. }
    destruct (x_live _ _ _ _ I _ _ EN) as (j & Hj & ->).
    split.
    - eapply XI_arr; eauto.
      + destruct (x_core _ _ _ _ I). constructor; auto.
        * intros pos s g H. apply AR in H. apply (ri_arr pos s g H).
        * intros m i H. destruct (ri_slot m i H) as (s & g & ES). exists s, g. now apply AR.
        * intros p1 p2 s g1 g2 H1 H2. apply AR in H1, H2. eauto.
        * unfold r'. simpl. unfold resize. rewrite app_length, repeat_length. simpl in ri_len.
          pose proof (posn_mono o j k ltac:(apply F) ltac:(apply F) ltac:(lia)). unfold step. lia.
      + intros i. unfold occ. destruct (nth_error (rg_arr r') _) as [[x|]|] eqn:E1.
        * apply AR in E1. now rewrite E1.
        * destruct (nth_error (rg_arr r) _) as [[x|]|] eqn:E2; auto. apply AR in E2. congruence.
        * destruct (nth_error (rg_arr r) _) as [[x|]|] eqn:E2; auto. apply AR in E2. congruence.
    - intros m. unfold slot. simpl rg_dict. simpl rg_arr. destruct (m_find name_eqb m (d_dict d)) as [im|]; auto.
      destruct (nth_error (resize _ _) _) as [[[s g]|]|] eqn:E1.
      + apply AR in E1. now rewrite E1.
      + destruct (nth_error (rg_arr r) _) as [[[s g]|]|] eqn:E2; auto. apply AR in E2. unfold r' in E2. simpl in E2. congruence.
      + destruct (nth_error (rg_arr r) _) as [[[s g]|]|] eqn:E2; auto. apply AR in E2. unfold r' in E2. simpl in E2. congruence.
  Qed.
  (** The aggregator of a name is put in its place. *)
  Lemma put_core k r d n id g : XI o k r d -> n <> [] -> m_find name_eqb n (d_dict (rg_dict r)) = Some id -> occ o r id = false ->
    let r' := mk_registry (rg_opt r) (set_nth (posn step id) (Some (rg_next r, g)) (resize (S (posn step id)) (rg_arr r))) (rg_dict r)
                          (rg_enabled r) (rg_initializer r) (S (rg_next r)) in
    exists d', XI o k r' d' /\ slot o (core r' d') n = Some (id, rg_next r, g) /\ forall m, m <> n -> slot o (core r' d') m = slot o (core r d) m.
  Proof.
    intros I HN EN OC r'. destruct (x_live _ _ _ _ I _ _ EN) as (j & Hj & ->). set (p := posn step (nth_id o j)) in *.
    assert (LP : (p < length (resize (S p) (rg_arr r)))%nat) by (pose proof (resize_length (S p) (rg_arr r)); lia).
    assert (AR : forall q x, q <> p -> (nth_error (rg_arr r') q = Some (Some x) <-> nth_error (rg_arr r) q = Some (Some x))).
    { intros q x Hq. unfold r'. simpl. rewrite set_nth_other by auto. apply resize_some. }
    assert (AP : nth_error (rg_arr r') p = Some (Some (rg_next r, g))) by (unfold r'; simpl; now rewrite set_nth_same).
    assert (PO : forall m im, m <> n -> m_find name_eqb m (d_dict (rg_dict r)) = Some im -> posn step im <> p).
    { intros m im NE Em P. destruct (x_pos k r d m n im (nth_id o j) I Em EN P). congruence. }
    assert (OC' : forall q, posn step q <> p -> occ o r' q = occ o r q).
    { intros q Hq. unfold occ. fold step. destruct (nth_error (rg_arr r') (posn step q)) as [[x|]|] eqn:E1.
      - apply (AR _ _ Hq) in E1. now rewrite E1.
      - destruct (nth_error (rg_arr r) (posn step q)) as [[x|]|] eqn:E2; auto. apply (AR _ _ Hq) in E2. congruence.
      - destruct (nth_error (rg_arr r) (posn step q)) as [[x|]|] eqn:E2; auto. apply (AR _ _ Hq) in E2. congruence. }
    assert (OCn : occ o r' (nth_id o j) = true) by (eapply occ_some; exact AP).
    assert (DN : m_find name_eqb n (d_dict d) = None) by (now rewrite (x_dict _ _ _ _ I), EN, OC).
    assert (IN : m_find Z.eqb (nth_id o j) (d_index d) = None) by (now rewrite (x_idx _ _ _ _ I), OC).
    set (d' := mk_dict (d_counter d) (d_step d) (m_insert name_eqb n (nth_id o j) (d_dict d)) (m_insert Z.eqb (nth_id o j) n (d_index d)) (d_free d)).
    assert (FD : forall m, m_find name_eqb m (d_dict d') = if name_eqb m n then Some (nth_id o j) else m_find name_eqb m (d_dict d)).
    { intros m. now apply m_find_insert. }
    assert (FI : forall i, m_find Z.eqb i (d_index d') = if i =? nth_id o j then Some n else m_find Z.eqb i (d_index d)).
    { intros i. now apply m_find_insert. }
    pose proof (x_core _ _ _ _ I) as R.
    assert (POC : forall m im, m <> n -> m_find name_eqb m (d_dict d) = Some im -> posn step im <> p).
    { intros m im NE Em. apply (PO m im NE). rewrite (x_dict _ _ _ _ I) in Em. destruct (m_find name_eqb m (d_dict (rg_dict r))) as [i|]; [|discriminate].
      destruct (occ o r i); congruence. }
    exists d'. split; [|split].
    - constructor; try (apply I).
      + constructor; try (apply R).
        * intros m i. cbn [core rg_dict]. rewrite FD, FI. destruct (name_eqb_spec m n) as [->|NE], (Z.eqb_spec i (nth_id o j)) as [->|NE'].
          -- tauto.
          -- split; [congruence|]. intros H. apply (ri_inv _ _ _ R) in H. simpl in H. congruence.
          -- split; [|congruence]. intros H. apply (ri_inv _ _ _ R) in H. simpl in H. congruence.
          -- apply (ri_inv _ _ _ R).
        * cbn [core rg_dict]. rewrite FD. destruct (name_eqb_spec [] n); [congruence|]. apply R.
        * cbn [core rg_dict]. intros m i. rewrite FD. destruct (name_eqb_spec m n) as [->|NE]; [|apply R].
          intros H. injection H as <-. exists j. auto.
        * intros i Hi. cbn [core rg_dict d' d_free] in Hi. rewrite (x_fr _ _ _ _ I) in Hi. destruct (x_free _ _ _ _ I _ Hi) as (A & B). split; auto.
          cbn [core rg_dict]. rewrite FI. destruct (Z.eqb_spec i (nth_id o j)) as [->|].
          -- apply (x_inv _ _ _ _ I) in EN. congruence.
          -- rewrite (x_idx _ _ _ _ I), B. now destruct (occ o r i).
        * intros q s x H. cbn [core rg_dict rg_arr rg_next] in *. destruct (Nat.eq_dec q p) as [->|NE].
          -- rewrite AP in H. injection H as <- <-. split; [simpl; lia|]. exists n, (nth_id o j). split; auto. now rewrite FD, name_eqb_refl.
          -- apply (AR q _ NE) in H. destruct (ri_arr _ _ _ R _ _ _ H) as (H1 & m & im & H2 & H3). simpl in H1, H2. split; [simpl; lia|].
             exists m, im. split; auto. rewrite FD. destruct (name_eqb_spec m n); auto. congruence.
        * intros m im. cbn [core rg_dict rg_arr]. rewrite FD. destruct (name_eqb_spec m n) as [->|NE].
          -- intros H. injection H as <-. fold step p. eauto.
          -- intros H. destruct (ri_slot _ _ _ R _ _ H) as (s & x & ES). exists s, x. apply AR; auto. apply (POC m im NE H).
        * intros p1 p2 s x1 x2 H1 H2. cbn [core rg_arr] in H1, H2. destruct (Nat.eq_dec p1 p) as [->|N1], (Nat.eq_dec p2 p) as [->|N2]; auto.
          -- rewrite AP in H1. injection H1 as <- <-. apply (AR _ _ N2) in H2. destruct (ri_arr _ _ _ R _ _ _ H2) as [X _]. simpl in X. lia.
          -- rewrite AP in H2. injection H2 as <- <-. apply (AR _ _ N1) in H1. destruct (ri_arr _ _ _ R _ _ _ H1) as [X _]. simpl in X. lia.
          -- apply (AR _ _ N1) in H1. apply (AR _ _ N2) in H2. apply (ri_uniq _ _ _ R _ _ _ _ _ H1 H2).
        * cbn [core rg_arr]. unfold r'. simpl. rewrite set_nth_length. unfold resize. rewrite app_length, repeat_length.
          pose proof (ri_len _ _ _ R) as RL. simpl in RL.
          pose proof (posn_mono o j k ltac:(apply F) ltac:(apply F) ltac:(lia)). unfold p, step. lia.
      + intros m. rewrite FD. change (rg_dict r') with (rg_dict r). destruct (name_eqb_spec m n) as [->|NE].
        * now rewrite EN, OCn.
        * rewrite (x_dict _ _ _ _ I). destruct (m_find name_eqb m (d_dict (rg_dict r))) as [im|] eqn:Em; auto. now rewrite (OC' im (PO m im NE Em)).
      + intros i. rewrite FI. change (rg_dict r') with (rg_dict r). destruct (Z.eqb_spec i (nth_id o j)) as [->|NE].
        * rewrite OCn. apply (x_inv _ _ _ _ I) in EN. now rewrite EN.
        * rewrite (x_idx _ _ _ _ I). destruct (m_find Z.eqb i (d_index (rg_dict r))) as [m|] eqn:Em.
          -- rewrite OC'; auto. apply (PO m i).
             ++ intros ->. apply (x_inv _ _ _ _ I) in Em. congruence.
             ++ now apply (x_inv _ _ _ _ I).
          -- destruct (occ o r i), (occ o r' i); reflexivity.
    - unfold slot. cbn [core rg_dict rg_arr]. rewrite FD, name_eqb_refl. fold step p. now rewrite AP.
    - intros m NE. unfold slot. cbn [core rg_dict rg_arr]. rewrite FD. destruct (name_eqb_spec m n); [congruence|].
      destruct (m_find name_eqb m (d_dict d)) as [im|] eqn:Em; auto. pose proof (POC m im NE Em) as Hq. fold step.
      destruct (nth_error (rg_arr r') (posn step im)) as [[[s x]|]|] eqn:E1.
      + apply (AR _ _ Hq) in E1. now rewrite E1.
      + destruct (nth_error (rg_arr r) (posn step im)) as [[[s x]|]|] eqn:E2; auto. apply (AR _ _ Hq) in E2. congruence.
      + destruct (nth_error (rg_arr r) (posn step im)) as [[[s x]|]|] eqn:E2; auto. apply (AR _ _ Hq) in E2. congruence.
  Qed.

  (** create_aggregator once the id is known *)
  Definition rest (x : option xplace) (e : cenv) (now : Z) (id : Z) (r : registry) : outcome (option Z * registry) :=
    pos <- d_id2pos id (rg_dict r) ;;
    match nth_error (rg_arr r) pos with
    | Some (Some _) => Ok (Some id, r)
    | _ =>
        let put g := mk_registry (rg_opt r) (set_nth pos (Some (rg_next r, g)) (resize (S pos) (rg_arr r))) (rg_dict r)
                                 (rg_enabled r) (rg_initializer r) (S (rg_next r)) in
        match x with
        | Some XResize =>
            if (length (rg_arr r) <=? pos)%nat then Ok (None, r)
            else
              g <- agg_new (rg_opt r) (ce_clock e) (ce_rnd e) now ;; g1 <- rg_init_x ne e g r ;; Ok (Some id, put g1)
        | Some XNew =>
            Ok (None, mk_registry (rg_opt r) (resize (S pos) (rg_arr r)) (rg_dict r) (rg_enabled r) (rg_initializer r) (rg_next r))
        | Some XInit =>
            g <- agg_new (rg_opt r) (ce_clock e) (ce_rnd e) now ;;
            if rg_enabled r && rg_initializer r then Ok (None, put g)
            else g1 <- rg_init_x ne e g r ;; Ok (Some id, put g1)
        | _ => g <- agg_new (rg_opt r) (ce_clock e) (ce_rnd e) now ;; g1 <- rg_init_x ne e g r ;; Ok (Some id, put g1)
        end
    end.
  Lemma create_rest x e n now r : n <> [] -> x <> Some XIndex -> rg_create_x ne x e n now r =
    match m_find name_eqb n (d_dict (rg_dict r)) with
    | Some id => rest x e now id r
    | None =>
        let '(id, c, fr) := new_id (ce_pick e) (rg_dict r) in
        let d := rg_dict r in
        match x with
        | Some XDict => Ok (None, core r (mk_dict c (d_step d) (d_dict d) (d_index d) fr))
        | _ => rest x e now id (core r (mk_dict c (d_step d) (m_insert name_eqb n id (d_dict d)) (m_insert Z.eqb id n (d_index d)) fr))
        end
    end.
  Proof.
    intros HN HX. destruct n as [|a n]; [congruence|]. unfold rg_create_x, d_create_id_x, new_id, rest.
    destruct (m_find name_eqb (a :: n) (d_dict (rg_dict r))) as [id|].
    - destruct r; reflexivity.
    - destruct (d_free (rg_dict r)) as [|f0 fr0]; destruct x as [[]|]; try reflexivity; congruence.
  Qed.

  Definition created (x : option xplace) (e : cenv) (n : name) (now : Z) (res : option Z) (rc rc' : registry) : Prop :=
    match res with
    | Some id => exists g s, cell_create ne (rgo_agg o) e now (cellof o rc n) = Ok (g, cellof o rc' n) /\ slot o rc' n = Some (id, s, g)
    | None =>
        slot o rc n = None /\
        match x with
        | Some XInit => exists id g s, cell_create ne (rgo_agg o) (no_data e) now (cellof o rc n) = Ok (g, cellof o rc' n) /\ slot o rc' n = Some (id, s, g)
        | _ => slot o rc' n = None
        end
    end.
  Lemma rest_sim x e now k r d n id res r' : XI o k r d -> (k <= S N)%nat -> n <> [] -> m_find name_eqb n (d_dict (rg_dict r)) = Some id ->
    x <> Some XDict -> x <> Some XIndex -> rest x e now id r = Ok (res, r') ->
    exists d', XI o k r' d' /\ same_flags r r' /\ rg_dict r' = rg_dict r /\ (forall m, m <> n -> slot o (core r' d') m = slot o (core r d) m) /\
      (forall i, res = Some i -> i = id) /\ created x e n now res (core r d) (core r' d').
  Proof.
    intros I Hk HN EN NX1 NX2 E. unfold rest in E. destruct (x_live _ _ _ _ I _ _ EN) as (j & Hj & EJ).
    assert (EP : d_id2pos id (rg_dict r) = Ok (posn step id)) by (rewrite EJ; apply (x_id2pos k r d j I); lia).
    rewrite EP in E. cbn [bind] in E. destruct (occ o r id) eqn:OC.
    - destruct (occ_true _ _ _ OC) as (s & g & EA). fold step in EA. rewrite EA in E. injection E as <- <-.
      exists d. split; auto. split; [split; auto|]. split; auto. split; auto. split; [congruence|].
      assert (SL : slot o (core r d) n = Some (id, s, g)) by (apply (slot_core k r d n id s g I); auto).
      exists g, s. split; auto. unfold cell_create, cellof. rewrite SL. reflexivity.
    - assert (SN : slot o (core r d) n = None).
      { unfold slot. simpl. now rewrite (x_dict _ _ _ _ I), EN, OC. }
      set (put := fun g => mk_registry (rg_opt r) (set_nth (posn step id) (Some (rg_next r, g)) (resize (S (posn step id)) (rg_arr r))) (rg_dict r)
                                 (rg_enabled r) (rg_initializer r) (S (rg_next r))) in E.
      assert (NORMAL : forall res r', (g <- agg_new (rg_opt r) (ce_clock e) (ce_rnd e) now ;; g1 <- rg_init_x ne e g r ;; Ok (Some id, put g1)) = Ok (res, r') ->
        exists d', XI o k r' d' /\ same_flags r r' /\ rg_dict r' = rg_dict r /\ (forall m, m <> n -> slot o (core r' d') m = slot o (core r d) m) /\
          (forall i, res = Some i -> i = id) /\ created x e n now res (core r d) (core r' d')).
      { intros res0 r0 E0. destruct (agg_new _ _ _ _) as [g| |] eqn:EA; cbn [bind] in E0; try discriminate.
        destruct (rg_init_x ne e g r) as [g1| |] eqn:EI; cbn [bind] in E0; try discriminate. injection E0 as <- <-.
        destruct (put_core k r d n id g1 I HN EN OC) as (d' & I' & S1 & S2). fold (put g1) in I', S1, S2.
        exists d'. split; auto. split; [split; reflexivity|]. split; auto. split; auto. split; [congruence|].
        exists g1, (rg_next r). split; auto. unfold cell_create, cellof. rewrite SN, S1. cbn [cl_agg].
        pose proof (ri_opt _ _ _ (x_core _ _ _ _ I)) as RO. simpl in RO. rewrite <- RO, EA. cbn [bind cl_enabled cl_init core rg_enabled rg_initializer].
        unfold rg_init_x in EI. destruct (negb (rg_enabled r)).
        - injection EI as <-. reflexivity.
        - destruct (rg_initializer r); [|injection EI as <-; reflexivity].
          destruct (ce_init e); [|injection EI as <-; reflexivity].
          destruct (g_add_red ne (ce_c1 e) (ce_c2 e) r0 g) as [[b g']| |]; cbn [bind] in *; try discriminate. injection EI as <-. reflexivity. }
      assert (E' : match x with
        | Some XResize =>
            if (length (rg_arr r) <=? posn step id)%nat then Ok (None, r)
            else
              g <- agg_new (rg_opt r) (ce_clock e) (ce_rnd e) now ;; g1 <- rg_init_x ne e g r ;; Ok (Some id, put g1)
        | Some XNew =>
            Ok (None, mk_registry (rg_opt r) (resize (S (posn step id)) (rg_arr r)) (rg_dict r) (rg_enabled r) (rg_initializer r) (rg_next r))
        | Some XInit =>
            g <- agg_new (rg_opt r) (ce_clock e) (ce_rnd e) now ;;
            if rg_enabled r && rg_initializer r then Ok (None, put g)
            else g1 <- rg_init_x ne e g r ;; Ok (Some id, put g1)
        | _ => g <- agg_new (rg_opt r) (ce_clock e) (ce_rnd e) now ;; g1 <- rg_init_x ne e g r ;; Ok (Some id, put g1)
        end = Ok (res, r')).
      { destruct (nth_error (rg_arr r) (posn step id)) as [[y|]|] eqn:EA; auto. exfalso. exact (occ_false _ _ _ OC _ EA). }
      clear E. destruct x as [[]|]; try congruence; auto.
      + destruct (length (rg_arr r) <=? posn step id)%nat; auto. injection E' as <- <-.
        exists d. split; auto. split; [split; auto|]. split; auto. split; auto. split; [congruence|]. split; auto.
      + injection E' as <- <-. destruct (resize_core k r d n id I EN) as (I' & SL). exists d. split; auto. split; [split; reflexivity|].
        split; auto. split; auto. split; [congruence|]. split; auto. rewrite SL. auto.
      + destruct (agg_new (rg_opt r) (ce_clock e) (ce_rnd e) now) as [g| |] eqn:EA; cbn [bind] in E'; try discriminate.
        destruct (rg_enabled r && rg_initializer r) eqn:EF.
        * injection E' as <- <-. destruct (put_core k r d n id g I HN EN OC) as (d' & I' & S1 & S2). fold (put g) in I', S1, S2.
          exists d'. split; auto. split; [split; reflexivity|]. split; auto. split; auto. split; [congruence|]. split; auto.
          exists id, g, (rg_next r). split; auto. unfold cell_create, cellof. rewrite SN, S1. cbn [cl_agg].
          pose proof (ri_opt _ _ _ (x_core _ _ _ _ I)) as RO. simpl in RO. rewrite <- RO. cbn [no_data ce_clock ce_rnd]. rewrite EA.
          unfold put. cbn [bind cl_enabled cl_init core rg_enabled rg_initializer]. apply andb_prop in EF as [-> ->]. reflexivity.
        * apply NORMAL. cbn [bind]. exact E'.
  Qed.

  Lemma create_x_sim x k r d e n now res r' : XI o k r d -> (k <= N)%nat -> n <> [] -> x <> Some XIndex -> rg_create_x ne x e n now r = Ok (res, r') ->
    exists k' d', (k <= k' <= S k)%nat /\ XI o k' r' d' /\ same_flags r r' /\ (forall m, m <> n -> slot o (core r' d') m = slot o (core r d) m) /\
      created x e n now res (core r d) (core r' d') /\
      (forall id, res = Some id -> m_find name_eqb n (d_dict (rg_dict r')) = Some id) /\
      (forall i, rg_get_name i r <> [] -> rg_get_name i r' = rg_get_name i r) /\
      (forall i, rg_get_name i r = [] -> rg_get_name i r' <> [] -> rg_get_name i r' = n) /\
      (res = None -> x <> Some XDict -> exists id, m_find name_eqb n (d_dict (rg_dict r')) = Some id).
  Proof.
    intros I Hk HN HX E. rewrite create_rest in E by auto.
    destruct (m_find name_eqb n (d_dict (rg_dict r))) as [id|] eqn:EN.
    - assert (HXD : x <> Some XDict \/ x = Some XDict) by (destruct x as [[]|]; auto; left; discriminate).
      destruct HXD as [HXD| ->].
      + destruct (rest_sim x e now k r d n id res r' I ltac:(lia) HN EN HXD HX E) as (d' & I' & FL & D & SO & RI & CR).
        exists k, d'. split; [lia|]. split; auto. split; auto. split; auto. split; auto. rewrite D. split; [|split; [|split]].
        * intros i Hi. now rewrite (RI i Hi).
        * intros i _. unfold rg_get_name. now rewrite D.
        * intros i A B. unfold rg_get_name in *. congruence.
        * eauto.
      + (* the name is known: dict.hpp:38 is not reached *)
        assert (E2 : rest None e now id r = Ok (res, r')).
        { unfold rest in *. destruct (d_id2pos id (rg_dict r)); cbn [bind] in *; auto. }
        destruct (rest_sim None e now k r d n id res r' I ltac:(lia) HN EN ltac:(discriminate) ltac:(discriminate) E2) as (d' & I' & FL & D & SO & RI & CR).
        exists k, d'. split; [lia|]. split; auto. split; auto. split; auto. split; [|rewrite D; split; [|split; [|split]]].
        * destruct res as [i|]; auto.
        * intros i Hi. now rewrite (RI i Hi).
        * intros i _. unfold rg_get_name. now rewrite D.
        * intros i A B. unfold rg_get_name in *. congruence.
        * congruence.
    - destruct (new_id (ce_pick e) (rg_dict r)) as [[id c] fr] eqn:EI.
      assert (SN : slot o (core r d) n = None) by (unfold slot; simpl; now rewrite (x_dict _ _ _ _ I), EN).
      assert (HXD : x <> Some XDict \/ x = Some XDict) by (destruct x as [[]|]; auto; left; discriminate).
      destruct HXD as [HXD| ->].
      + destruct (enter_core k r d (ce_pick e) n id c fr I Hk HN EN EI) as (k' & Hk' & I1 & OC & NI).
        set (d1 := mk_dict c (d_step (rg_dict r)) _ _ _) in *. set (dc := mk_dict c (d_step d) _ _ _) in *.
        assert (E2 : rest x e now id (core r d1) = Ok (res, r')) by (destruct x as [[]|]; auto; congruence).
        clear E. assert (EN1 : m_find name_eqb n (d_dict (rg_dict (core r d1))) = Some id).
        { unfold d1. simpl. rewrite m_find_insert by auto. now rewrite name_eqb_refl. }
        destruct (rest_sim x e now k' (core r d1) dc n id res r' I1 ltac:(lia) HN EN1 HXD HX E2) as (d' & I' & FL & D & SO & RI & CR).
        assert (GN : forall i, rg_get_name i r' = if i =? id then n else rg_get_name i r).
        { intros i. unfold rg_get_name, d_get_name. rewrite D. unfold d1. simpl. rewrite m_find_insert by auto. now destruct (i =? id). }
        exists k', d'. split; auto. split; auto. split; [exact FL|]. split; [exact SO|]. split; [|split; [|split; [|split]]].
        * exact CR.
        * intros i Hi. rewrite D, (RI i Hi). exact EN1.
        * intros i Hi. rewrite GN. destruct (Z.eqb_spec i id) as [->|]; auto. exfalso. apply Hi. unfold rg_get_name, d_get_name. now rewrite NI.
        * intros i A B. rewrite GN in *. destruct (i =? id); congruence.
        * intros _ _. exists id. rewrite D. exact EN1.
      + destruct (lost_core k r d (ce_pick e) id c fr I Hk EI) as (k' & Hk' & I1). injection E as <- <-.
        exists k', (mk_dict c (d_step d) (d_dict d) (d_index d) fr). split; auto. split; auto. split; [split; reflexivity|]. split; auto.
        split; [split; [exact SN|]; exact SN|]. split; [discriminate|]. split; auto. split; [|congruence].
        intros i A B. exfalso. apply B. exact A.
  Qed.

  (** * Deletion *)
  Definition emptied (r : registry) (pos : nat) (d : dict) : registry :=
    mk_registry (rg_opt r) (set_nth pos None (rg_arr r)) d (rg_enabled r) (rg_initializer r) (rg_next r).
  Definition without (n : name) (id : Z) (fr : list Z) (d : dict) : dict :=
    mk_dict (d_counter d) (d_step d) (m_erase name_eqb n (d_dict d)) (m_erase Z.eqb id (d_index d)) fr.
  Lemma emptied_arr r pos d q x : nth_error (rg_arr (emptied r pos d)) q = Some (Some x) <-> q <> pos /\ nth_error (rg_arr r) q = Some (Some x).
  Proof.
    simpl. destruct (Nat.eq_dec pos q) as [<-|NE].
    - split; [|tauto]. intros H. exfalso. destruct (lt_dec pos (length (rg_arr r))) as [L|L].
      + rewrite set_nth_same in H by auto. discriminate.
      + assert (nth_error (set_nth pos None (rg_arr r)) pos = None) by (apply nth_error_None; rewrite set_nth_length; lia). congruence.
    - rewrite set_nth_other by auto. intuition.
  Qed.
  Lemma occ_emptied r pos d i : occ o (emptied r pos d) i = if (posn step i =? pos)%nat then false else occ o r i.
  Proof.
    destruct (occ o (emptied r pos d) i) eqn:E.
    - destruct (occ_true _ _ _ E) as (s & g & EA). apply emptied_arr in EA as [NE EA]. fold step in NE, EA.
      destruct (Nat.eqb_spec (posn step i) pos); [congruence|]. symmetry. eapply occ_some. exact EA.
    - destruct (Nat.eqb_spec (posn step i) pos) as [|NE]; auto. destruct (occ o r i) eqn:E2; auto.
      destruct (occ_true _ _ _ E2) as (s & g & EA). exfalso. apply (occ_false _ _ _ E (s, g)). apply emptied_arr. auto.
  Qed.
  Lemma drop_core k r d n id fr : XI o k r d -> m_find name_eqb n (d_dict (rg_dict r)) = Some id ->
    (forall i, In i fr -> i = id \/ In i (d_free (rg_dict r))) ->
    let rc := emptied r (posn step id) (without n id fr d) in
    RInv o k rc /\ slot o rc n = None /\ (forall m, m <> n -> slot o rc m = slot o (core r d) m) /\
    (forall m, m_find name_eqb m (d_dict (without n id fr d)) = if name_eqb n m then None else m_find name_eqb m (d_dict d)) /\
    (forall i, m_find Z.eqb i (d_index (without n id fr d)) = if id =? i then None else m_find Z.eqb i (d_index d)).
  Proof.
    intros I EN FR rc. pose proof (x_core _ _ _ _ I) as R.
    assert (FD : forall m, m_find name_eqb m (d_dict (without n id fr d)) = if name_eqb n m then None else m_find name_eqb m (d_dict d)).
    { intros m. unfold without. simpl. apply m_find_erase. apply name_eqb_spec. }
    assert (FI : forall i, m_find Z.eqb i (d_index (without n id fr d)) = if id =? i then None else m_find Z.eqb i (d_index d)).
    { intros i. unfold without. simpl. apply m_find_erase. apply zeqb_spec. }
    assert (KN : forall m i, m_find name_eqb m (d_dict d) = Some i -> m_find name_eqb m (d_dict (rg_dict r)) = Some i).
    { intros m i H. rewrite (x_dict _ _ _ _ I) in H. destruct (m_find name_eqb m (d_dict (rg_dict r))) as [q|]; [|discriminate]. destruct (occ o r q); congruence. }
    assert (PO : forall m im, m <> n -> m_find name_eqb m (d_dict d) = Some im -> posn step im <> posn step id).
    { intros m im NE Em P. destruct (x_pos k r d m n im id I (KN _ _ Em) EN P). congruence. }
    destruct (x_live _ _ _ _ I _ _ EN) as (j & Hj & EJ).
    split; [|split; [|split; [|split; auto]]].
    - constructor; try (apply R).
      + intros m i. cbn [rc emptied rg_dict]. rewrite FD, FI. destruct (name_eqb_spec n m) as [<-|NE], (Z.eqb_spec id i) as [<-|NE'].
        * split; discriminate.
        * split; [discriminate|]. intros H. apply (ri_inv _ _ _ R) in H. apply KN in H. congruence.
        * split; [|discriminate]. intros H. exfalso. apply KN in H. apply NE. eapply x_inj; eauto.
        * apply (ri_inv _ _ _ R).
      + cbn [rc emptied rg_dict]. rewrite FD. destruct (name_eqb n []); auto. apply R.
      + intros m i. cbn [rc emptied rg_dict]. rewrite FD. destruct (name_eqb n m); [discriminate|]. apply (ri_live _ _ _ R).
      + intros i Hi. cbn [rc emptied rg_dict without d_free] in Hi. cbn [rc emptied rg_dict]. rewrite FI.
        destruct (FR i Hi) as [->|Hf].
        * split; [eauto|]. now rewrite Z.eqb_refl.
        * destruct (x_free _ _ _ _ I _ Hf) as (A & B). split; auto. rewrite (x_idx _ _ _ _ I), B. destruct (_ =? _), (occ o r i); auto.
      + intros q s x H. apply emptied_arr in H as [NE H]. destruct (ri_arr _ _ _ R _ _ _ H) as (A & m & im & B & C). split; auto.
        exists m, im. split; auto. cbn [rc emptied rg_dict]. rewrite FD. destruct (name_eqb_spec n m) as [<-|]; auto.
        exfalso. apply NE. simpl in B. apply KN in B. rewrite EN in B. injection B as <-. exact C.
      + intros m im. cbn [rc emptied rg_dict]. rewrite FD. destruct (name_eqb_spec n m); [discriminate|]. intros Em.
        destruct (ri_slot _ _ _ R _ _ Em) as (s & g & ES). exists s, g. apply emptied_arr. split; [|exact ES]. apply (PO m im); congruence.
      + intros p1 p2 s x1 x2 H1 H2. apply emptied_arr in H1 as [_ H1]. apply emptied_arr in H2 as [_ H2]. apply (ri_uniq _ _ _ R _ _ _ _ _ H1 H2).
      + cbn [rc emptied rg_arr]. rewrite set_nth_length. apply R.
    - unfold slot. cbn [rc emptied rg_dict]. now rewrite FD, name_eqb_refl.
    - intros m NE. unfold slot. cbn [rc emptied rg_dict core]. rewrite FD. destruct (name_eqb_spec n m); [congruence|].
      destruct (m_find name_eqb m (d_dict d)) as [im|] eqn:Em; auto. unfold rc. cbn [emptied core rg_arr]. fold step.
      rewrite set_nth_other; auto. intros P. apply (PO m im NE Em). auto.
  Qed.
  Lemma del_core k r d n b r' : XI o k r d -> (k <= N)%nat -> n <> [] -> rg_del n r = Ok (b, r') ->
    exists d', XI o k r' d' /\ same_flags r r' /\ slot o (core r' d') n = None /\ (forall m, m <> n -> slot o (core r' d') m = slot o (core r d) m) /\
      m_find name_eqb n (d_dict (rg_dict r')) = None /\ b = false.
  Proof.
    intros I Hk HN E. unfold rg_del, d_get_id in E. destruct (m_find name_eqb n (d_dict (rg_dict r))) as [id|] eqn:EN.
    2: { rewrite Z.eqb_refl in E. injection E as <- <-. exists d. split; auto. split; [split; auto|]. split; [|auto].
         unfold slot. simpl. now rewrite (x_dict _ _ _ _ I), EN. }
    destruct (x_live _ _ _ _ I _ _ EN) as (j & Hj & EJ). pose proof (id_range o N F j ltac:(lia)) as RG. pose proof (step_pos o N F) as SP.
    destruct (Z.eqb_spec id bad_id); [lia|].
    assert (EP : d_id2pos id (rg_dict r) = Ok (posn step id)) by (rewrite EJ; apply (x_id2pos k r d j I); lia).
    rewrite EP in E. cbn [bind] in E. destruct (_ <? _)%nat; [|discriminate]. unfold d_free_id in E.
    assert (EI := proj1 (x_inv _ _ _ _ I _ _) EN). rewrite EI in E. cbv zeta in E. cbv iota in E.
    set (fr := if existsb _ _ then _ else _) in E. injection E as <- <-.
    assert (FR : forall i, In i fr -> i = id \/ In i (d_free (rg_dict r))).
    { intros i. unfold fr. destruct (existsb _ _); auto. intros H. apply in_app_or in H as [H|[<-|[]]]; auto. }
    change (mk_registry _ _ _ _ _ _) with (emptied r (posn step id) (without n id fr (rg_dict r))).
    destruct (drop_core k r d n id fr I EN FR) as (R & SN & SO & FD & FI). exists (without n id fr d).
    assert (GD : forall m, m_find name_eqb m (d_dict (without n id fr (rg_dict r))) = if name_eqb n m then None else m_find name_eqb m (d_dict (rg_dict r))).
    { intros m. unfold without. simpl. apply m_find_erase. apply name_eqb_spec. }
    assert (GI : forall i, m_find Z.eqb i (d_index (without n id fr (rg_dict r))) = if id =? i then None else m_find Z.eqb i (d_index (rg_dict r))).
    { intros i. unfold without. simpl. apply m_find_erase. apply zeqb_spec. }
    split; [|split; [split; reflexivity|split; [exact SN|split; [exact SO|split; [cbn [emptied rg_dict]; now rewrite GD, name_eqb_refl|auto]]]]].
    constructor; try (apply I).
    - exact R.
    - auto.
    - intros m. rewrite FD. cbn [emptied rg_dict]. rewrite GD. destruct (name_eqb_spec n m) as [|NE]; auto. rewrite (x_dict _ _ _ _ I).
      destruct (m_find name_eqb m (d_dict (rg_dict r))) as [im|] eqn:Em; auto.
      fold (emptied r (posn step id) (without n id fr (rg_dict r))). rewrite occ_emptied.
      destruct (Nat.eqb_spec (posn step im) (posn step id)) as [P|]; auto. destruct (x_pos k r d m n im id I Em EN P). congruence.
    - intros i. rewrite FI, (x_idx _ _ _ _ I), occ_emptied. cbn [emptied rg_dict]. rewrite GI. destruct (Z.eqb_spec id i) as [<-|NE].
      + now rewrite Nat.eqb_refl.
      + destruct (Nat.eqb_spec (posn step i) (posn step id)) as [P|]; auto.
        destruct (m_find Z.eqb i (d_index (rg_dict r))) as [m|] eqn:Em; [|now destruct (occ o r i)].
        apply (x_inv _ _ _ _ I) in Em. destruct (x_pos k r d m n i id I Em EN P). congruence.
    - intros m i. cbn [emptied rg_dict]. rewrite GD, GI. destruct (name_eqb_spec n m) as [<-|NE], (Z.eqb_spec id i) as [<-|NE'].
      + split; discriminate.
      + split; [discriminate|]. intros H. apply (x_inv _ _ _ _ I) in H. congruence.
      + split; [|discriminate]. intros H. exfalso. apply NE. eapply x_inj; eauto.
      + apply (x_inv _ _ _ _ I).
    - cbn [emptied rg_dict]. rewrite GD. destruct (name_eqb n []); auto. apply I.
    - intros m i. cbn [emptied rg_dict]. rewrite GD. destruct (name_eqb n m); [discriminate|]. apply (x_live _ _ _ _ I).
    - intros i Hi. cbn [emptied rg_dict without d_free] in Hi. cbn [emptied rg_dict]. rewrite GI. destruct (FR i Hi) as [->|Hf].
      + split; [eauto|]. now rewrite Z.eqb_refl.
      + destruct (x_free _ _ _ _ I _ Hf) as (A & B). split; auto. destruct (_ =? _); auto.
  Qed.
  Lemma del_x_core k r d n b r' : XI o k r d -> (k <= N)%nat -> n <> [] -> rg_del_x n r = Ok (b, r') ->
    exists d', XI o k r' d' /\ same_flags r r' /\ slot o (core r' d') n = None /\ (forall m, m <> n -> slot o (core r' d') m = slot o (core r d) m) /\
      rg_dict r' = rg_dict r /\ b <> Some true.
  Proof.
    intros I Hk HN E. unfold rg_del_x, d_get_id in E. destruct (m_find name_eqb n (d_dict (rg_dict r))) as [id|] eqn:EN.
    2: { rewrite Z.eqb_refl in E. injection E as <- <-. exists d. split; auto. split; [split; auto|]. split; [|split; [auto|split; [auto|congruence]]].
         unfold slot. simpl. now rewrite (x_dict _ _ _ _ I), EN. }
    destruct (x_live _ _ _ _ I _ _ EN) as (j & Hj & EJ). pose proof (id_range o N F j ltac:(lia)) as RG. pose proof (step_pos o N F) as SP.
    destruct (Z.eqb_spec id bad_id); [lia|].
    assert (EP : d_id2pos id (rg_dict r) = Ok (posn step id)) by (rewrite EJ; apply (x_id2pos k r d j I); lia).
    rewrite EP in E. cbn [bind] in E. destruct (_ <? _)%nat; [|discriminate]. unfold d_free_id_x in E.
    assert (EI := proj1 (x_inv _ _ _ _ I _ _) EN). rewrite EI in E. cbv zeta in E. cbv iota in E. injection E as <- <-.
    change (mk_registry _ _ _ _ _ _) with (emptied r (posn step id) (rg_dict r)).
    destruct (drop_core k r d n id (d_free (rg_dict r)) I EN ltac:(auto)) as (R & SN & SO & FD & FI).
    exists (without n id (d_free (rg_dict r)) d).
    split; [|split; [split; reflexivity|split; [exact SN|split; [exact SO|split; [auto|congruence]]]]].
    constructor; try (apply I).
    - exact R.
    - auto.
    - intros m. rewrite FD. cbn [emptied rg_dict]. rewrite (x_dict _ _ _ _ I).
      destruct (m_find name_eqb m (d_dict (rg_dict r))) as [im|] eqn:Em; [|now destruct (name_eqb n m)].
      fold (emptied r (posn step id) (rg_dict r)). rewrite occ_emptied. destruct (name_eqb_spec n m) as [<-|NE].
      + rewrite EN in Em. injection Em as <-. now rewrite Nat.eqb_refl.
      + destruct (Nat.eqb_spec (posn step im) (posn step id)) as [P|]; auto. destruct (x_pos k r d m n im id I Em EN P). congruence.
    - intros i. rewrite FI, (x_idx _ _ _ _ I), occ_emptied. cbn [emptied rg_dict]. destruct (Z.eqb_spec id i) as [<-|NE].
      + now rewrite Nat.eqb_refl.
      + destruct (Nat.eqb_spec (posn step i) (posn step id)) as [P|]; auto.
        destruct (m_find Z.eqb i (d_index (rg_dict r))) as [m|] eqn:Em; [|now destruct (occ o r i)].
        apply (x_inv _ _ _ _ I) in Em. destruct (x_pos k r d m n i id I Em EN P). congruence.
  Qed.
  Lemma del_empty k r d : XI o k r d -> rg_del [] r = Ok (false, r) /\ rg_del_x [] r = Ok (Some false, r).
  Proof. intros I. unfold rg_del, rg_del_x, d_get_id. rewrite (x_noname _ _ _ _ I), Z.eqb_refl. auto. Qed.

  (** * A pop_all that throws *)
  Lemma app_eq_len {A} : forall (l1 l1' l2 l2' : list A), l1 ++ l2 = l1' ++ l2' -> length l1 = length l1' -> l1 = l1' /\ l2 = l2'.
  Proof.
    induction l1 as [|x l1 IH]; intros [|y l1'] l2 l2' E L; simpl in *; try discriminate; auto. injection E as <- E.
    destruct (IH l1' l2 l2' E ltac:(lia)) as [<- <-]. auto.
  Qed.
  Lemma pop_loop_dict f clk : forall is r l r', rg_pop_loop ne f clk is r = Ok (l, r') -> rg_dict r' = rg_dict r.
  Proof.
    induction is as [|i is IH]; intros r l r' E; cbn [rg_pop_loop] in E; [injection E as <- <-; auto|].
    destruct (d_pos2id i (rg_dict r)) as [id| |]; cbn [bind] in E; try discriminate.
    destruct (rg_get id r) as [[[pos [s g]]|]| |]; cbn [bind] in E; try discriminate.
    - destruct (g_call ne (GoSeparate _ _ _ _) g) as [[o1 g1]| |]; cbn [bind] in *; try discriminate.
      destruct (g_call ne (if f then _ else _) g1) as [[o2 g3]| |]; cbn [bind] in *; try discriminate.
      destruct (rg_pop_loop ne f clk is _) as [[l2 r2]| |] eqn:EL; cbn [bind] in E; try discriminate. injection E as <- <-.
      apply IH in EL. exact EL.
    - destruct (rg_pop_loop ne f clk is r) as [[l2 r2]| |] eqn:EL; cbn [bind] in E; try discriminate. injection E as <- <-. eauto.
  Qed.
  Lemma pop_x_cell k r d i f clk l x r' : XI o k r d -> (k <= N)%nat -> rg_pop_all_x ne i f clk r = Ok (l, x, r') ->
    XI o k r' d /\ same_flags r r' /\ rg_dict r' = rg_dict r /\
    match x with
    | None => rg_pop_all ne f clk r = Ok (l, r') /\ forall n, cell_popped ne o f (clk n) n (core r d) l (core r' d)
    | Some (m, a) => NoDup (map fst (l ++ [(m, a)])) /\ exists im sm gm, slot o (core r d) m = Some (im, sm, gm) /\ forall n,
        match slot o (core r d) n with
        | None => slot o (core r' d) n = None /\ m_find name_eqb n (l ++ [(m, a)]) = None
        | Some (id, s, g) => if id <=? im then cell_popped ne o f (clk n) n (core r d) (l ++ [(m, a)]) (core r' d) /\
                                                exists g', slot o (core r' d) n = Some (id, s, g')
                             else slot o (core r' d) n = slot o (core r d) n /\ m_find name_eqb n (l ++ [(m, a)]) = None
        end
    end.
  Proof.
    intros I Hk E. unfold rg_pop_all_x in E. pose proof (x_core _ _ _ _ I) as R.
    assert (ALL : Forall (fun i => (i < length (rg_arr r))%nat) (seq 0 (length (rg_arr r)))) by (apply Forall_forall; intros y Hy; apply in_seq in Hy; lia).
    pose proof (pop_x_split f clk _ _ _ _ _ _ E) as SP. destruct x as [[m a]|].
    2: { destruct (loop_core f clk _ k r d l r' I Hk ALL SP) as [EC I']. 
         assert (EC' : rg_pop_all ne f clk (core r d) = Ok (l, core r' d)) by exact EC.
         destruct (pop_all_spec ne o N F f clk k (core r d) l (core r' d) R Hk EC') as (_ & FL & _).
         assert (ED : rg_dict r' = rg_dict r). { eapply pop_loop_dict; exact SP. }
         split; auto. split; [exact FL|]. split; auto. split; [exact SP|]. intros n. apply (pop_all_cell ne o N F f clk k _ _ _ n R Hk EC'). }
    destruct SP as (is1 & jp & is2 & r1 & id & pos & s0 & g0 & ES & EL & _ & _ & _ & _ & EL1).
    assert (LEN : (length is1 < length (rg_arr r))%nat).
    { rewrite <- (seq_length (length (rg_arr r)) 0), ES, app_length. simpl. lia. }
    assert (SQ : is1 = seq 0 (length is1) /\ jp = length is1).
    { replace (length (rg_arr r)) with (length is1 + S (length (rg_arr r) - S (length is1)))%nat in ES by lia.
      rewrite seq_app in ES. apply app_eq_len in ES; [|now rewrite seq_length]. destruct ES as [ES1 ES2]. split; auto. simpl in ES2. injection ES2 as ES2 _. auto. }
    destruct SQ as [SQ ->]. set (q := length is1) in *.
    assert (SQ2 : is1 ++ [q] = seq 0 (S q)) by (rewrite seq_S; simpl; congruence).
    rewrite SQ2 in EL. rewrite SQ in EL1.
    assert (A2 : Forall (fun i => (i < length (rg_arr r))%nat) (seq 0 (S q))) by (apply Forall_forall; intros y Hy; apply in_seq in Hy; lia).
    assert (A1 : Forall (fun i => (i < length (rg_arr r))%nat) (seq 0 q)) by (apply Forall_forall; intros y Hy; apply in_seq in Hy; lia).
    assert (ED : rg_dict r' = rg_dict r). { eapply pop_loop_dict; exact EL. }
    destruct (loop_core f clk _ k r d _ r' I Hk A2 EL) as [EC2 I2]. destruct (loop_core f clk _ k r d _ r1 I Hk A1 EL1) as [EC1 I1].
    destruct (pop_loop_spec ne o N F f clk _ k (core r d) _ (core r' d) (seq_NoDup _ _) R Hk A2 EC2) as (_ & FL & _ & _ & _ & ND & IN2 & SL2).
    destruct (pop_loop_spec ne o N F f clk _ k (core r d) _ (core r1 d) (seq_NoDup _ _) R Hk A1 EC1) as (_ & _ & _ & _ & _ & _ & IN1 & SL1).
    split; auto. split; [exact FL|]. split; auto. split; auto.
    destruct (IN2 m a ltac:(apply in_or_app; right; now left)) as (jm & EM & HJ).
    destruct (ri_slot _ _ _ R _ _ EM) as (sm & gm & EA).
    assert (SM : slot o (core r d) m = Some (nth_id o jm, sm, gm)) by (unfold slot; rewrite EM; fold step in EA |- *; now rewrite EA).
    exists (nth_id o jm), sm, gm. split; auto.
    assert (JQ : idx o jm = q).
    { apply in_seq in HJ. destruct (Nat.eq_dec (idx o jm) q) as [|NQ]; auto. exfalso.
      pose proof (SL2 m) as X2. pose proof (SL1 m) as X1. rewrite SM in X1, X2.
      destruct X1 as (j1 & J1 & Y1 & _). destruct X2 as (j2 & J2 & Y2 & _).
      apply nth_id_inj in J1; [|apply F]. apply nth_id_inj in J2; [|apply F]. subst j1 j2.
      destruct Y1 as (ga & _ & P1); [apply in_seq; lia|]. destruct Y2 as (gb & _ & P2); [apply in_seq; lia|].
      rewrite P1 in P2. injection P2 as P2 _.
      assert (M1 : m_find name_eqb m l = None).
      { apply (m_find_none_in ne N). rewrite map_app in ND. cbn [map fst] in ND. intros IZ. apply NoDup_remove_2 in ND. apply ND. rewrite app_nil_r. exact IZ. }
      rewrite M1 in P2. symmetry in P2. apply (m_find_none_in ne N) in P2. apply P2. rewrite map_app. apply in_or_app. right. now left. }
    intros n. specialize (SL2 n). destruct (slot o (core r d) n) as [[[id' s'] g']|] eqn:SN; [|exact SL2].
    destruct SL2 as (j & EJ & Y1 & Y2). subst id'. destruct (Z.leb_spec (nth_id o j) (nth_id o jm)) as [L|L].
    - assert (IN : In (idx o j) (seq 0 (S q))).
      { apply in_seq. rewrite <- JQ. unfold idx, nth_id in *. pose proof (step_pos o N F). fold step in L. nia. }
      destruct (Y1 IN) as (g2 & S2 & P2). split; [|eauto]. unfold cell_popped, cellof. rewrite SN, S2. destruct FL as [FL1 FL2]. rewrite FL1, FL2.
      unfold popped_one in P2. cbn [cell_do cl_agg].
      destruct (g_call ne (GoSeparate _ _ _ _) g') as [[o1 g1]| |]; cbn [bind] in *; try discriminate.
      destruct (g_call ne (if f then _ else _) g1) as [[o2 g3]| |]; cbn [bind] in *; try discriminate. injection P2 as -> ->. reflexivity.
    - apply Y2. intros IN. apply in_seq in IN. rewrite <- JQ in IN. unfold idx, nth_id in *. pose proof (step_pos o N F). fold step in L. nia.
  Qed.

  (** * One call *)
  Definition cell_step (c : option cop) (n : name) (v : cout) (rc rc' : registry) : Prop :=
    match c with
    | Some c => cell_do ne (rgo_agg o) c (cellof o rc n) = Ok (v, cellof o rc' n)
    | None => cellof o rc' n = cellof o rc n
    end.
  Lemma create_none e n now r id r' : rg_create ne e n now r = Ok (id, r') -> rg_create_x ne None e n now r = Ok (Some id, r').
  Proof. intros E. rewrite create_x_none, E. reflexivity. Qed.
  Lemma occ_named k r d n id s g : XI o k r d -> slot o (core r d) n = Some (id, s, g) -> rg_get_name id (core r d) = n.
  Proof.
    intros I SL. apply (get_name_of o k (core r d) id n (x_core _ _ _ _ I)). unfold slot in SL.
    destruct (m_find name_eqb n (d_dict (rg_dict (core r d)))) as [i|]; [|discriminate]. destruct (nth_error _ _) as [[[]|]|]; congruence.
  Qed.
  Lemma clean_core k r d id : XI o k r d -> (k <= N)%nat -> rg_get_name id r <> [] \/ rg_get id r = Ok None ->
    rg_get_name id (core r d) <> [] \/ rg_get id (core r d) = Ok None.
  Proof.
    intros I Hk [H|H]; [|right; rewrite core_get by apply I; auto]. destruct (occ o r id) eqn:EO.
    - left. now rewrite (core_name k r d id I EO).
    - right. rewrite core_get by apply I. unfold rg_get_name, d_get_name in H. destruct (m_find Z.eqb id (d_index (rg_dict r))) as [m|] eqn:EM; [|congruence].
      apply (x_inv _ _ _ _ I) in EM. destruct (x_live _ _ _ _ I _ _ EM) as (j & Hj & EJ). unfold rg_get. destruct (id =? bad_id); auto.
      rewrite EJ at 1. rewrite (x_id2pos k r d j I) by lia. rewrite <- EJ. cbn [bind]. pose proof (occ_false _ _ _ EO) as NO. fold step in NO.
      destruct (nth_error (rg_arr r) (posn step id)) as [[[]|]|]; auto. edestruct NO; eauto.
  Qed.
  Lemma call_cell k r d id op out r' : XI o k r d -> (k <= N)%nat -> rg_call ne id op r = Ok (out, r') ->
    rg_get_name id r <> [] \/ rg_get id r = Ok None ->
    same_flags r r' /\
    forall n, n <> [] -> cell_step (if name_eqb (rg_get_name id r) n then Some (CoCall op) else None) n (COut out) (core r d) (core r' d).
  Proof.
    intros I Hk E C. destruct (call_core k r d id op out r' I Hk E) as [EC I'].
    destruct (call_sim ne o N F k (core r d) id op out (core r' d) (x_core _ _ _ _ I) Hk EC (clean_core k r d id I Hk C)) as (_ & FL & _ & SL).
    split; [exact FL|]. intros n HN. specialize (SL n HN).
    destruct (occ o r id) eqn:EO.
    - rewrite (core_name k r d id I EO) in SL. destruct (name_eqb _ n); [apply SL|]. unfold cell_step. apply cellof_same; auto.
    - assert (EN : rg_get_name id (core r d) = []).
      { unfold rg_get_name, d_get_name. cbn [core rg_dict]. rewrite (x_idx _ _ _ _ I), EO. reflexivity. }
      rewrite EN in SL. destruct (name_eqb_spec [] n); [congruence|].
      destruct (name_eqb_spec (rg_get_name id r) n) as [EQ|NE]; [|unfold cell_step; apply cellof_same; auto].
      assert (SN : slot o (core r d) n = None).
      { unfold slot. cbn [core rg_dict]. rewrite (x_dict _ _ _ _ I). unfold rg_get_name, d_get_name in EQ.
        destruct (m_find Z.eqb id (d_index (rg_dict r))) as [m|] eqn:EM; [|congruence]. subst m. apply (x_inv _ _ _ _ I) in EM. now rewrite EM, EO. }
      assert (GN : rg_get id (core r d) = Ok None).
      { destruct (clean_core k r d id I Hk C) as [X|X]; [congruence|exact X]. }
      unfold rg_call in EC. rewrite GN in EC. cbn [bind] in EC. assert (ER : core r d = core r' d) by congruence. assert (OE : no_out op = out) by congruence. rewrite <- ER, <- OE.
      unfold cell_step, cellof. rewrite SN. reflexivity.
  Qed.
  Lemma created_cell x e n now res rc rc' : created x e n now res rc rc' ->
    match res with
    | Some id => cell_do ne (rgo_agg o) (CoCreate e now) (cellof o rc n) = Ok (CUnit, cellof o rc' n)
    | None => match x with
              | Some XInit => cell_do ne (rgo_agg o) (CoCreate (no_data e) now) (cellof o rc n) = Ok (CUnit, cellof o rc' n)
              | _ => slot o rc' n = slot o rc n
              end
    end.
  Proof.
    unfold created. destruct res as [id|].
    - intros (g & s & H & _). cbn [cell_do]. rewrite H. reflexivity.
    - intros [SN H]. destruct x as [[]|]; try (rewrite SN; tauto). destruct H as (id & g & s & H & _). cbn [cell_do]. rewrite H. reflexivity.
  Qed.
  Lemma x_do_sim k r d op out r' : XI o k r d -> (k <= N)%nat -> x_do ne op r = Ok (out, r') -> not_between op ->
    exists k' d', (k <= k' <= S k)%nat /\ XI o k' r' d' /\
      (x_clean r op -> forall n, n <> [] -> cell_step (x_addressed n r op out) n (x_view n out) (core r d) (core r' d')).
  Proof.
    intros I Hk E NB. destruct op as [op|x e m now|m|i f clk]; cbn [x_do] in E.
    - destruct (rg_do ne op r) as [[o1 r1]| |] eqn:EO; cbn [bind] in E; try discriminate. injection E as <- <-. cbn [x_addressed x_view x_clean].
      destruct op as [e m now|id g|e m rd c1 c2|f clk|v|v|m|id|id h|e m h now|p x c1 c2]; simpl rg_do in EO.
      + destruct (rg_create ne e m now r) as [[id r2]| |] eqn:EC; cbn [bind] in EO; try discriminate. injection EO as <- <-.
        destruct m as [|a m].
        * simpl in EC. injection EC as <- <-. exists k, d. split; [lia|]. split; auto. intros _ n HN. simpl. destruct (name_eqb_spec [] n); [congruence|]. reflexivity.
        * apply create_none in EC.
          destruct (create_x_sim None k r d e (a :: m) now (Some id) r2 I Hk ltac:(discriminate) ltac:(discriminate) EC) as (k' & d' & Hk' & I' & FL & SO & CR & _).
          exists k', d'. split; auto. split; auto. intros _ n HN. simpl addressed. apply created_cell in CR.
          destruct (name_eqb_spec (a :: m) n) as [<-|NE]; [exact CR|]. apply cellof_same; [exact FL|]. apply SO. auto.
      + destruct (rg_call ne id g r) as [[o2 r2]| |] eqn:EC; cbn [bind] in EO; try discriminate. injection EO as <- <-.
        exists k, d. split; [lia|]. split; [eapply call_core; eauto|]. intros C n HN. apply (call_cell k r d id g o2 r2 I Hk EC C). auto.
      + unfold rg_add_name in EO.
        destruct (rg_create ne e m (ri_ts (rd_info rd)) r) as [[id r2]| |] eqn:EC; cbn [bind] in EO; try discriminate.
        destruct (rg_call ne id (GoAdd (SmRed rd) c1 c2) r2) as [[o3 r3]| |] eqn:EK; cbn [bind] in EO; try discriminate. injection EO as <- <-.
        destruct m as [|a m].
        * simpl in EC. injection EC as <- <-. unfold rg_call in EK. rewrite get_bad in EK. cbn [bind] in EK. injection EK as <- <-.
          exists k, d. split; [lia|]. split; auto. intros _ n HN. simpl. destruct (name_eqb_spec [] n); [congruence|]. reflexivity.
        * apply create_none in EC.
          destruct (create_x_sim None k r d e (a :: m) _ (Some id) r2 I Hk ltac:(discriminate) ltac:(discriminate) EC) as (k' & d' & Hk' & I' & FL & SO & CR & EN & _).
          specialize (EN id eq_refl). destruct CR as (g & s & CC & SL).
          assert (GN : rg_get_name id r2 = a :: m).
          { unfold rg_get_name, d_get_name. apply (x_inv _ _ _ _ I') in EN. now rewrite EN. }
          assert (OC : occ o r2 id = true).
          { apply (slot_core k' r2 d' _ _ _ _ I') in SL as [_ SL]. eapply occ_some. exact SL. }
          assert (XC : rg_call ne id (GoAdd (SmRed rd) c1 c2) (core r2 d') = Ok (o3, core r3 d') /\ XI o k' r3 d').
          { unfold rg_call in EK |- *. rewrite core_get by apply I'. destruct (rg_get id r2) as [[[pos [s1 g1]]|]| |] eqn:EG; cbn [bind] in EK |- *; try discriminate.
            - destruct (g_call ne (GoAdd (SmRed rd) c1 c2) g1) as [[o4 g4]| |]; cbn [bind] in EK |- *; try discriminate. injection EK as <- <-.
              rewrite core_set. split; auto. pose proof (get_occ _ _ _ _ EG) as EA. eapply set_core; [exact I'|exact EA|].
              pose proof (proj2 (proj1 (slot_core k' r2 d' _ _ _ _ I') SL)) as EA2.
              assert (EP : pos = posn step id /\ s1 = s /\ g1 = g).
              { unfold rg_get in EG. destruct (x_live _ _ _ _ I' _ _ EN) as (j & Hj & EJ).
                pose proof (id_range o N F j ltac:(lia)). pose proof (step_pos o N F). destruct (Z.eqb_spec id bad_id); [discriminate|].
                rewrite EJ in EG at 1. rewrite (x_id2pos k' r2 d' j I') in EG by lia. rewrite <- EJ in EG. cbn [bind] in EG. rewrite EA2 in EG. injection EG as <- <- <-. auto. }
              destruct EP as (-> & -> & ->). rewrite <- core_set.
              apply (set_slot o N F k' (core r2 d') (a :: m) id s g g4 (x_core _ _ _ _ I')); [|exact EA2].
              cbn [core rg_dict]. now rewrite (x_dict _ _ _ _ I'), EN, OC.
            - injection EK as <- <-. auto. }
          destruct XC as [XC I3]. exists k', d'. split; auto. split; auto. intros _ n HN. simpl addressed.
          assert (GC : rg_get_name id (core r2 d') = a :: m) by (rewrite (core_name k' r2 d' id I' OC); exact GN).
          assert (HS : exists g4, g_call ne (GoAdd (SmRed rd) c1 c2) g = Ok (o3, g4) /\ slot o (core r3 d') (a :: m) = Some (id, s, g4) /\
                       forall q, q <> a :: m -> slot o (core r3 d') q = slot o (core r2 d') q).
          { unfold rg_call in XC. rewrite core_get in XC by apply I'. destruct (x_live _ _ _ _ I' _ _ EN) as (j & Hj & EJ).
            pose proof (proj2 (proj1 (slot_core k' r2 d' _ _ _ _ I') SL)) as EA2.
            pose proof (id_range o N F j ltac:(lia)). pose proof (step_pos o N F).
            assert (EG : rg_get id r2 = Ok (Some (posn step id, (s, g)))).
            { unfold rg_get. destruct (Z.eqb_spec id bad_id); [lia|]. rewrite EJ at 1. rewrite (x_id2pos k' r2 d' j I') by lia. rewrite <- EJ. cbn [bind]. now rewrite EA2. }
            rewrite EG in XC. cbn [bind] in XC. destruct (g_call ne (GoAdd (SmRed rd) c1 c2) g) as [[o4 g4]| |]; cbn [bind] in XC; try discriminate.
            assert (OE : o4 = o3) by congruence. assert (XE : rg_set (posn step id) (Some (s, g4)) (core r2 d') = core r3 d').
            { congruence. }
            subst o4. exists g4. split; auto. rewrite <- XE.
            assert (ED : m_find name_eqb (a :: m) (d_dict (rg_dict (core r2 d'))) = Some id).
            { cbn [core rg_dict]. now rewrite (x_dict _ _ _ _ I'), EN, OC. }
            destruct (set_slot o N F k' (core r2 d') (a :: m) id s g g4 (x_core _ _ _ _ I') ED EA2) as (_ & SS & SQ). split; [exact SS|exact SQ]. }
          destruct HS as (g4 & G4 & S4 & Q4).
          assert (FL3 : same_flags r r3).
          { destruct FL as [F1 F2]. assert (same_flags r2 r3).
            { clear - EK. unfold rg_call in EK. destruct (rg_get id r2) as [[[pos [s1 g1]]|]| |]; cbn [bind] in EK; try discriminate.
              - destruct (g_call ne _ g1) as [[o4 g4]| |]; cbn [bind] in EK; try discriminate. injection EK as <- <-. split; reflexivity.
              - injection EK as <- <-. split; reflexivity. }
            destruct H as [F3 F4]. split; congruence. }
          destruct (name_eqb_spec (a :: m) n) as [<-|NE].
          -- unfold cell_step. cbn [cell_do]. rewrite CC. cbn [bind]. rewrite G4. cbn [bind]. simpl view. unfold cellof at 2. rewrite S4.
             unfold cellof, cell_set. cbn [cl_enabled cl_init core rg_enabled rg_initializer]. destruct FL as [F1 F2], FL3 as [F3 F4]. rewrite F1, F2, F3, F4. reflexivity.
          -- apply cellof_same; [exact FL3|]. rewrite Q4 by auto. apply SO. auto.
      + destruct (rg_pop_all ne f clk r) as [[l r2]| |] eqn:EC; cbn [bind] in EO; try discriminate. injection EO as <- <-.
        assert (ALL : Forall (fun i => (i < length (rg_arr r))%nat) (seq 0 (length (rg_arr r)))) by (apply Forall_forall; intros y Hy; apply in_seq in Hy; lia).
        destruct (loop_core f clk _ k r d l r2 I Hk ALL EC) as [EC' I']. exists k, d. split; [lia|]. split; auto.
        intros _ n HN. apply (pop_all_cell ne o N F f clk k (core r d) l (core r2 d) n (x_core _ _ _ _ I) Hk EC').
      + injection EO as <- <-. destruct (enable_core k r d v I) as [EE I']. exists k, d. split; [lia|]. split; auto. intros _ n HN. simpl addressed.
        destruct (enable_sim o k (core r d) v (x_core _ _ _ _ I)) as [_ SL]. rewrite EE in SL. unfold cell_step. cbn [cell_do view].
        unfold cellof. rewrite SL. simpl. destruct (slot o (core r d) n) as [[[]]|]; reflexivity.
      + injection EO as <- <-. exists k, d. split; [lia|]. split; [apply init_core; auto|]. intros _ n HN. reflexivity.
      + destruct (rg_del m r) as [[b r2]| |] eqn:EC; cbn [bind] in EO; try discriminate. injection EO as <- <-. destruct m as [|a m].
        * rewrite (proj1 (del_empty k r d I)) in EC. injection EC as <- <-. exists k, d. split; [lia|]. split; auto.
          intros _ n HN. simpl addressed. destruct (name_eqb_spec [] n); [congruence|]. reflexivity.
        * destruct (del_core k r d (a :: m) b r2 I Hk ltac:(discriminate) EC) as (d' & I' & [F1 F2] & SN & SO & _).
          exists k, d'. split; [lia|]. split; auto. intros _ n HN. simpl addressed.
          destruct (name_eqb_spec (a :: m) n) as [<-|NE]; [|apply cellof_same; [split; auto|apply SO; auto]].
          unfold cell_step, cellof. cbn [cell_do]. unfold cell_set. rewrite SN. cbn [core rg_enabled rg_initializer cl_enabled cl_init]. now rewrite F1, F2.
      + injection EO as <- <-. exists k, d. split; [lia|]. split; auto. intros _ n HN. reflexivity.
      + destruct (rg_pusher id h r); cbn [bind] in EO; try discriminate. injection EO as <- <-. exists k, d. split; [lia|]. split; auto. intros _ n HN. reflexivity.
      + unfold rg_pusher_name in EO. destruct (rg_create ne e m now r) as [[id r2]| |] eqn:EC; cbn [bind] in EO; try discriminate.
        destruct (rg_pusher id h r2) as [p| |]; cbn [bind] in EO; try discriminate. injection EO as <- <-.
        destruct m as [|a m].
        * simpl in EC. injection EC as <- <-. exists k, d. split; [lia|]. split; auto. intros _ n HN. simpl. destruct (name_eqb_spec [] n); [congruence|]. reflexivity.
        * apply create_none in EC.
          destruct (create_x_sim None k r d e (a :: m) now (Some id) r2 I Hk ltac:(discriminate) ltac:(discriminate) EC) as (k' & d' & Hk' & I' & FL & SO & CR & _).
          exists k', d'. split; auto. split; auto. intros _ n HN. simpl addressed. apply created_cell in CR.
          destruct (name_eqb_spec (a :: m) n) as [<-|NE]; [exact CR|]. apply cellof_same; [exact FL|]. apply SO. auto.
      + destruct (rg_call_pusher ne p x c1 c2 r) as [[l r2]| |] eqn:EC; cbn [bind] in EO; try discriminate. injection EO as <- <-.
        destruct (push_core k r d p x c1 c2 l r2 I Hk EC) as [EC' I'].
        destruct (push_sim ne o N F k (core r d) p x c1 c2 l (core r2 d) (x_core _ _ _ _ I) Hk EC') as (_ & FL & _ & _ & SL).
        exists k, d. split; [lia|]. split; auto. intros _ n HN. specialize (SL n HN). simpl addressed. rewrite (find_core k r d n I Hk).
        destruct (slot o (core r d) n) as [[[i s] g]|] eqn:ES; [|apply cellof_same; auto; congruence].
        destruct (s =? rp_obj p)%nat; [exact SL|apply cellof_same; auto; congruence].
    - destruct (rg_create_x ne (Some x) e m now r) as [[res r2]| |] eqn:EC; cbn [bind] in E; try discriminate. injection E as <- <-.
      destruct m as [|a m].
      + simpl in EC. injection EC as <- <-. exists k, d. split; [lia|]. split; auto. intros _ n HN. simpl. destruct (name_eqb_spec [] n); [congruence|].
        destruct x; reflexivity.
      + destruct (create_x_sim (Some x) k r d e (a :: m) now res r2 I Hk ltac:(discriminate)) as (k' & d' & Hk' & I' & FL & SO & CR & _).
        { intros X. injection X as ->. exact NB. }
        { exact EC. }
        exists k', d'. split; auto. split; auto. intros _ n HN. apply created_cell in CR.
        assert (OTHER : a :: m <> n -> cellof o (core r2 d') n = cellof o (core r d) n).
        { intros NE. apply cellof_same; [exact FL|]. apply SO. auto. }
        destruct res as [id|]; cbn [x_addressed x_view view].
        * destruct (name_eqb_spec (a :: m) n) as [<-|NE]; [|exact (OTHER NE)]. exact CR.
        * destruct x; try (destruct (name_eqb_spec (a :: m) n) as [<-|NE]; [|exact (OTHER NE)]; exact CR);
            (destruct (name_eqb_spec (a :: m) n) as [<-|NE]; [|exact (OTHER NE)]; apply cellof_same; [exact FL|exact CR]).
    - destruct (rg_del_x m r) as [[b r2]| |] eqn:EC; cbn [bind] in E; try discriminate. injection E as <- <-. destruct m as [|a m].
      + rewrite (proj2 (del_empty k r d I)) in EC. injection EC as <- <-. exists k, d. split; [lia|]. split; auto.
        intros _ n HN. simpl. destruct (name_eqb_spec [] n); [congruence|]. reflexivity.
      + destruct (del_x_core k r d (a :: m) b r2 I Hk ltac:(discriminate) EC) as (d' & I' & [F1 F2] & SN & SO & _).
        exists k, d'. split; [lia|]. split; auto. intros _ n HN. cbn [x_addressed].
        destruct (name_eqb_spec (a :: m) n) as [<-|NE]; [|apply cellof_same; [split; auto|apply SO; auto]].
        assert (V : x_view (a :: m) match b with Some b0 => XRet (RBool b0) | None => XThrew end = CUnit) by (destruct b; reflexivity).
        rewrite V. unfold cell_step, cellof. cbn [cell_do]. unfold cell_set. rewrite SN. cbn [core rg_enabled rg_initializer cl_enabled cl_init]. now rewrite F1, F2.
    - destruct (rg_pop_all_x ne i f clk r) as [[[l x] r2]| |] eqn:EC; cbn [bind] in E; try discriminate. injection E as <- <-.
      destruct (pop_x_cell k r d i f clk l x r2 I Hk EC) as (I' & FL & _ & SP). exists k, d. split; [lia|]. split; auto.
      intros _ n HN. destruct x as [[m a]|].
      + destruct SP as (_ & im & sm & gm & SM & SP). specialize (SP n). cbn [x_addressed x_view]. rewrite !(find_core k r d _ I Hk), SM.
        destruct (slot o (core r d) n) as [[[id s] g]|] eqn:SN.
        * destruct (id <=? im); [exact (proj1 SP)|]. apply cellof_same; [exact FL|]. rewrite SN. apply SP.
        * apply cellof_same; [exact FL|]. rewrite SN. apply SP.
      + apply SP.
  Qed.
End Inv.
