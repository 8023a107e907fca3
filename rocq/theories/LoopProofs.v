(** The thinning loop of reducer::reduce. *)
From Coq Require Import ZArith List Bool Permutation Lia Arith.
From Verif Require Import Base SortFacts ModelTypes ModelAvg ModelReducer ListFacts.
Import ListNotations.

Section Loop.
  Variable ne : nat -> list Z -> list Z.
  Hypothesis Hne : nth_element_ok ne.

  (** Elements of rows 1.. that are still unread: row j from position k_j. *)
  Fixpoint avail (ks : list nat) (rows : list (list Z)) : list Z :=
    match ks, rows with
    | k :: ks', v :: rows' => skipn k v ++ avail ks' rows'
    | _, _ => []
    end.

  Lemma avail_app ka kc A C : length ka = length A ->
    avail (ka ++ kc) (A ++ C) = avail ka A ++ avail kc C.
  Proof.
    revert A; induction ka as [|k ka IH]; destruct A; simpl; intros H; try lia; auto.
    rewrite IH by lia. now rewrite app_assoc.
  Qed.

  Lemma row_mid (v0 : list Z) A v C l : l = S (length A) -> row (v0 :: A ++ v :: C) l = Ok v.
  Proof.
    intros ->. unfold row. simpl. now rewrite nth_error_app_mid.
  Qed.

  Lemma set_mid (v0 : list Z) A v v' C l : l = S (length A) ->
    set_nth l v' (v0 :: A ++ v :: C) = v0 :: A ++ v' :: C.
  Proof. intros ->. simpl. now rewrite set_nth_app. Qed.

  (** One read of row l at position i = b + l. *)
  Lemma put_nth_spec cm v0 A v C l i b :
    l = S (length A) -> i = b + l -> i < length v -> i < length v0 ->
    exists v' x,
      put_nth ne cm l i (v0 :: A ++ v :: C) = Ok (set_nth i x v0 :: A ++ v' :: C) /\
      length v' = length v /\ nth_error v' i = Some x /\ firstn b v' = firstn b v /\
      Permutation (skipn b v) (skipn b v') /\ (cm <> Nth -> v' = v).
  Proof.
    intros Hl Hi Hv H0.
    assert (G : exists v', (if rmode_eqb cm Nth then nth_element_ ne l i (v0 :: A ++ v :: C)
                            else Ok (v0 :: A ++ v :: C)) = Ok (v0 :: A ++ v' :: C) /\
              length v' = length v /\ firstn b v' = firstn b v /\
              Permutation (skipn b v) (skipn b v') /\ (cm <> Nth -> v' = v)).
    { destruct (rmode_eqb cm Nth) eqn:Ecm.
      - exists (firstn b v ++ ne l (skipn b v)).
        unfold nth_element_. rewrite row_mid by auto. cbn [bind].
        rewrite (proj2 (Nat.ltb_ge (length v) i)) by lia.
        rewrite (proj2 (Nat.ltb_ge i l)) by lia.
        replace (i - l) with b by lia. replace (i - b) with l by lia.
        rewrite set_mid by auto.
        assert (Hk : l < length (skipn b v)) by (rewrite skipn_length; lia).
        repeat split.
        + rewrite app_length, (ne_length ne Hne) by auto. rewrite firstn_length, skipn_length. lia.
        + rewrite firstn_app, firstn_firstn, firstn_length.
          replace (Nat.min b b) with b by lia. replace (b - Nat.min b (length v)) with 0 by lia.
          simpl. now rewrite app_nil_r.
        + rewrite skipn_app, (skipn_all2 (firstn b v)) by (rewrite firstn_length; lia). rewrite firstn_length.
          replace (b - Nat.min b (length v)) with 0 by lia. simpl. apply (ne_perm ne Hne); auto.
        + intros; destruct cm; simpl in Ecm; congruence.
      - exists v. auto. }
    destruct G as (v' & G & L' & F' & P' & N').
    destruct (nth_error v' i) as [x|] eqn:Ex; [|apply nth_error_None in Ex; lia].
    exists v', x. repeat split; auto.
    unfold put_nth, get_nth_. rewrite G. cbn [bind]. rewrite row_mid by auto. cbn [bind].
    unfold at_ at 1. rewrite Ex. cbn [bind]. unfold row. simpl nth_error. cbn [bind].
    unfold at_. destruct (nth_error v0 i) eqn:E0; [|apply nth_error_None in E0; lia].
    cbn [bind]. reflexivity.
  Qed.

  (** State of the loop between iterations. [Stuck]: the last row is exhausted, nothing happens any more. *)
  Definition loop_ok (limit m n i l b : nat) (ks : list nat) : Prop :=
    exists ka kc, ks = ka ++ kc /\ length ks = n - 1 /\
      ((l = n /\ i = b /\ ka = [] /\ Forall (fun k => k <= b) kc) \/
       (1 <= l < n /\ i = b + l /\ length ka = l - 1 /\
        Forall (fun k => k <= b + n) ka /\ Forall (fun k => k <= b) kc)).

  Definition rows_ok (limit m n : nat) (v0 : list Z) (others : list (list Z)) : Prop :=
    length v0 = limit /\
    exists A lst, others = A ++ [lst] /\ S (S (length A)) = n /\
      Forall (fun v => length v = limit) A /\ length lst = m.

  Lemma rows_ok_upd limit m n v0 v0' A v v' C :
    rows_ok limit m n v0 (A ++ v :: C) -> length v0' = length v0 -> length v' = length v ->
    rows_ok limit m n v0' (A ++ v' :: C).
  Proof.
    intros (H0 & A1 & lst & E & Hn & HA & Hl) L0 L.
    split; [congruence|].
    destruct (list_snoc C) as [->|(C' & c & ->)].
    - apply app_inj_tail in E as [-> ->]. exists A1, v'. repeat split; auto; congruence.
    - rewrite app_comm_cons, app_assoc in E. apply app_inj_tail in E as [<- ->].
      exists (A ++ v' :: C'), lst. rewrite app_comm_cons, app_assoc.
      rewrite app_length in *. simpl in *. repeat split; auto.
      apply Forall_app in HA as [HA HB]. inversion HB; subst.
      apply Forall_app; split; auto. constructor; auto; congruence.
  Qed.

  Lemma stuck_loop cm m n todo i v0 A lst :
    n = S (S (length A)) -> length lst = m -> m <= i ->
    reduce_loop ne cm n todo i (n - 1) (v0 :: A ++ [lst]) = Ok (v0 :: A ++ [lst]).
  Proof.
    intros Hn Hl. revert i; induction todo as [|todo IH]; intros i Hi; simpl; auto.
    rewrite (proj2 (Nat.eqb_neq (n - 1) n)) by lia. rewrite Nat.eqb_refl.
    rewrite row_mid by lia. cbn [bind].
    rewrite (proj2 (Nat.ltb_ge i (length lst))) by lia. apply IH; lia.
  Qed.

  Lemma reduce_loop_spec cm limit m n : 2 <= n -> m <= limit ->
    forall todo i l b ks v0 others X disc,
    i + todo = limit -> length others = n - 1 ->
    rows_ok limit m n v0 others ->
    loop_ok limit m n i l b ks ->
    Permutation (v0 ++ disc ++ avail ks others) X ->
    exists v0' others', reduce_loop ne cm n todo i l (v0 :: others) = Ok (v0' :: others') /\
      length v0' = limit /\ submultiset v0' X.
  Proof.
    intros Hn Hm. induction todo as [|todo IH]; intros i l b ks v0 others X disc Hi Ho Hr Hs P.
    { simpl. exists v0, others. destruct Hr as (H0 & _). repeat split; auto. eexists; eauto. }
    assert (HX : submultiset v0 X) by (eexists; eauto).
    destruct Hs as (ka & kc & -> & Hks & Hs).
    simpl. destruct (Nat.eqb_spec l n) as [Eln|Nln].
    - (* row 0 *)
      destruct Hs as [(_ & -> & -> & Hkc)|(Hl & _)]; [|lia]. simpl in *.
      assert (G : exists v0', (if rmode_eqb cm Nth then nth_element_ ne 0 b (v0 :: others)
                               else Ok (v0 :: others)) = Ok (v0' :: others) /\
                length v0' = length v0 /\ Permutation v0 v0').
      { destruct Hr as (H0 & _). destruct (rmode_eqb cm Nth).
        - unfold nth_element_, row. simpl.
          rewrite (proj2 (Nat.ltb_ge (length v0) b)) by lia.
          rewrite Nat.sub_0_r, Nat.sub_diag. eexists; split; [reflexivity|].
          assert (Hk : 0 < length (skipn b v0)) by (rewrite skipn_length; lia).
          split.
          + rewrite app_length, (ne_length ne Hne), firstn_length, skipn_length by auto. lia.
          + rewrite <- (firstn_skipn b v0) at 1. apply Permutation_app_head. now apply (ne_perm ne Hne).
        - eexists; repeat split; eauto. }
      destruct G as (v0' & -> & L0 & P0). cbn [bind].
      apply IH with (b := b) (ks := kc) (disc := disc); auto; try lia.
      + destruct Hr as (H0 & R). split; auto; congruence.
      + exists [], kc. repeat split; auto. right. repeat split; auto; lia.
      + rewrite <- P0. exact P.
    - destruct Hs as [(? & _)|(Hl & -> & Hka & Bka & Bkc)]; [lia|].
      (* split the rows at l *)
      assert (HA : exists A v C, others = A ++ v :: C /\ length A = l - 1).
      { destruct (nth_error others (l - 1)) as [v|] eqn:E.
        - apply nth_error_split in E as (A & C & -> & HA). eauto.
        - apply nth_error_None in E. lia. }
      destruct HA as (A & v & C & -> & HA).
      destruct kc as [|k kc].
      { rewrite app_nil_r in Hks. lia. }
      assert (Hk := Forall_inv Bkc). assert (Bkc' := Forall_inv_tail Bkc). simpl in Hk.
      assert (STEP : b + l < length v ->
        exists v0' others',
          (d1 <- put_nth ne cm l (b + l) (v0 :: A ++ v :: C) ;;
           reduce_loop ne cm n todo (S (b + l)) (S l) d1) = Ok (v0' :: others') /\
          length v0' = limit /\ submultiset v0' X).
      { intros Hv.
        assert (H0 : length v0 = limit) by (destruct Hr; auto).
        destruct (put_nth_spec cm v0 A v C l (b + l) b) as (v' & x & E & L' & Ex & F' & P' & N'); auto; try lia.
        rewrite E. cbn [bind].
        destruct (set_nth_split (b + l) x v0) as (a0 & y & b0 & E0 & La0 & Es); [lia|].
        destruct (nth_error_split _ _ Ex) as (a1 & b1 & E1 & La1).
        assert (Sb1 : skipn (S (b + l)) v' = b1).
        { rewrite E1, skipn_app, skipn_all2 by lia. replace (S (b + l) - length a1) with 1 by lia. reflexivity. }
        set (D := skipn k (firstn b v) ++ skipn b a1).
        apply IH with (b := if (S l =? n) then (b + n) else b) (ks := (ka ++ [S (b + l)]) ++ kc)
                      (disc := y :: D ++ disc); auto; try lia.
        - rewrite app_length in Ho |- *. simpl in *. lia.
        - eapply rows_ok_upd; eauto. apply set_nth_length.
        - destruct (Nat.eqb_spec (S l) n) as [En|Nn].
          + exists [], ((ka ++ [S (b + l)]) ++ kc). repeat split.
            * rewrite !app_length in *; simpl in *; lia.
            * left. repeat split; try lia. rewrite <- app_assoc. apply Forall_app; split; auto.
              simpl. constructor; [lia|]. eapply Forall_impl; [|exact Bkc']. simpl; intros; lia.
          + exists (ka ++ [S (b + l)]), kc. repeat split.
            * rewrite !app_length in *; simpl in *; lia.
            * right. rewrite app_length. simpl. repeat split; try lia; auto.
              apply Forall_app; split; auto. constructor; [lia|constructor].
        - rewrite avail_app in P by lia. simpl in P.
          rewrite <- (app_assoc ka), avail_app by lia. cbn [avail app].
          rewrite Sb1, Es. subst v0.
          assert (Q : Permutation (skipn k v) (D ++ x :: b1)).
          { unfold D. rewrite <- (firstn_skipn b v) at 1. rewrite skipn_app, firstn_length.
            replace (k - Nat.min b (length v)) with 0 by lia. simpl.
            rewrite <- app_assoc. apply Permutation_app_head.
            rewrite P', E1, skipn_app. replace (b - length a1) with 0 by lia. reflexivity. }
          clear - P Q. perm_solve. }
      assert (Hlast : l = n - 1 -> length v = m).
      { destruct Hr as (_ & A1 & lst & E & Hn' & _ & Hlst). intros ->.
        assert (HC : C = []).
        { rewrite app_length in Ho. simpl in Ho. destruct C; auto. simpl in *. lia. }
        subst C. apply app_inj_tail in E as [-> ->]. auto. }
      assert (Hfull : l < n - 1 -> length v = limit).
      { destruct Hr as (_ & A1 & lst & E & Hn' & HF & _). intros ?.
        destruct (list_snoc C) as [->|(C' & c & ->)].
        - rewrite app_length in Ho. simpl in Ho. lia.
        - rewrite app_comm_cons, app_assoc in E. apply app_inj_tail in E as [<- ->].
          apply Forall_app in HF as [_ HF]. inversion HF; auto. }
      destruct (Nat.eqb_spec l (n - 1)) as [El|Nl].
      + rewrite row_mid by lia. cbn [bind].
        destruct (Nat.ltb_spec (b + l) (length v)) as [Hv|Hv].
        * apply STEP; auto.
        * assert (HC : C = []).
          { rewrite app_length in Ho. simpl in Ho. destruct C; auto. simpl in *. lia. }
          subst C. replace (reduce_loop ne cm n todo (S (b + l)) l) with (reduce_loop ne cm n todo (S (b + l)) (n - 1)) by (now rewrite El).
          rewrite (stuck_loop cm m n); auto; try lia.
          exists v0, (A ++ [v]). destruct Hr as (H0 & _). auto.
      + apply STEP. rewrite Hfull by lia. lia.
  Qed.

  (** Entry: [n] rows, all but the last full. *)
  Lemma reduce_loop_entry0 cm limit v0 A lst :
    length v0 = limit -> Forall (fun v => length v = limit) A -> length lst <= limit ->
    let d := v0 :: A ++ [lst] in
    exists v0' others', reduce_loop ne cm (length d) limit 0 (length d) d = Ok (v0' :: others') /\
      length v0' = limit /\ submultiset v0' (concat d).
  Proof.
    intros H0 HA Hl d.
    assert (Hd : length d = S (S (length A))) by (unfold d; simpl; rewrite app_length; simpl; lia).
    unfold d in *. apply (reduce_loop_spec cm limit (length lst)) with
      (b := 0) (ks := repeat 0 (S (length A))) (disc := []); try lia; auto.
    - rewrite Hd, app_length. simpl. lia.
    - split; auto. exists A, lst. auto.
    - exists [], (repeat 0 (S (length A))). rewrite repeat_length. repeat split; try lia.
      left. repeat split; auto. apply Forall_forall. intros k Hk. apply repeat_spec in Hk. lia.
    - simpl concat. rewrite app_nil_l. apply Permutation_app_head.
      assert (E : forall B, avail (repeat 0 (length B)) B = concat B).
      { induction B; simpl; auto. now rewrite IHB. }
      replace (S (length A)) with (length (A ++ [lst])) by (rewrite app_length; simpl; lia).
      now rewrite E.
  Qed.
  Lemma reduce_loop_entry cm limit v0 A lst :
    length v0 = limit -> Forall (fun v => length v = limit) A -> 1 <= length lst <= limit ->
    let d := v0 :: A ++ [lst] in
    exists v0' others', reduce_loop ne cm (length d) limit 0 (length d) d = Ok (v0' :: others') /\
      length v0' = limit /\ submultiset v0' (concat d).
  Proof. intros H0 HA Hl. apply reduce_loop_entry0; auto. lia. Qed.
End Loop.
