(** Lemmas for C92. *)
From Coq Require Import Ascii ZArith NArith List Bool Permutation Lia Sorted.
From Verif Require Import Base ModelTypes ModelRegistry ModelJson ModelPacker SpecPacker PackName PackerProofs PackerMore
  ModelPackThrow SpecPackThrow.
Import ListNotations.
Local Open Scope Z_scope.
Local Open Scope list_scope.

Section Esc.
  Variable esc : name -> name.
  Variable left : name -> name.

  (** The weaker invariant that survives a failed pushout: the records are sorted by the sizes stored with them. *)
  Definition SInv (o : popts) (h : bool) (p : packer) : Prop :=
    pk_opt p = o /\ pk_handler p = h /\ StronglySorted le_size (pk_top p).

  Lemma SInv_new : forall o h, SInv o h (pk_new o h).
  Proof. intros. split; [reflexivity|]. split; [reflexivity|constructor]. Qed.
  Lemma PInv_SInv : forall o h p, PInv esc o h p -> SInv o h p.
  Proof. intros o h p (A & B & C & _). split; [exact A|]. split; assumption. Qed.

  Lemma push_s : forall o h p r, opts_ok o -> SInv o h p -> exists p', pk_push esc r p = Some p' /\ SInv o h p' /\
    Permutation (stored p') (r :: stored p).
  Proof.
    intros o h p r Ho (E1 & E2 & S). unfold pk_push. rewrite E1.
    assert (K : forall t, t_rec t = r ->
      SInv o h (pk_set (firstn (lower_bound (t_size t) (pk_top p)) (pk_top p) ++ t :: skipn (lower_bound (t_size t) (pk_top p)) (pk_top p)) p) /\
      Permutation (stored (pk_set (firstn (lower_bound (t_size t) (pk_top p)) (pk_top p) ++ t :: skipn (lower_bound (t_size t) (pk_top p)) (pk_top p)) p))
        (r :: stored p)).
    { intros t Hr. split; [split; [exact E1|]; split; [exact E2|]; now apply sorted_insert|]. unfold stored. simpl.
      rewrite (Permutation_map t_rec (insert_perm _ _ _ _)). simpl. now rewrite Hr. }
    destruct (po_ncompact o) eqn:N.
    - destruct (compact_alone (po_sep o) r (Ho N)) as (n & lg & E & _). rewrite E.
      eexists. split; [reflexivity|]. exact (K (mk_top _ r lg) eq_refl).
    - eexists. split; [reflexivity|]. exact (K (mk_top _ r []) eq_refl).
  Qed.

  Lemma pushes_s : forall o h l p, opts_ok o -> SInv o h p -> exists p', pk_pushes esc l p = Some p' /\ SInv o h p' /\
    Permutation (stored p') (l ++ stored p).
  Proof.
    intros o h. induction l as [|r l IH]; intros p Ho I; simpl; [eauto|].
    destruct (push_s o h p r Ho I) as (p1 & -> & I1 & P).
    destruct (IH p1 Ho I1) as (p2 & -> & I2 & P2). exists p2. split; [reflexivity|]. split; [exact I2|].
    rewrite P2, P. symmetry. apply Permutation_middle.
  Qed.

  Lemma pop_s : forall o h p m t p', SInv o h p -> pk_pop m p = Some (t, p') ->
    SInv o h p' /\ Permutation (stored p) (t_rec t :: stored p') /\ length (pk_top p) = S (length (pk_top p')).
  Proof.
    intros o h p m t p' (E1 & E2 & S) Q. pose proof (pk_pop_spec m p S) as H. rewrite Q in H.
    destruct H as (k & N & -> & _). pose proof (remove_nth_perm _ _ _ _ N) as P.
    split; [split; [exact E1|]; split; [exact E2|]; simpl; now apply sorted_remove|].
    split; [unfold stored; simpl; now rewrite (Permutation_map t_rec P)|]. simpl. now rewrite (Permutation_length P).
  Qed.

  Lemma pop_loop_s : forall o h, opts_ok o -> forall fuel jl pl dl seen res p, SInv o h p -> (length (pk_top p) < fuel)%nat ->
    exists res' p', pop_loop esc fuel jl pl dl seen res p = Some (res', p') /\ SInv o h p' /\
      (exists e, res' = res ++ e /\ Permutation (stored p) (e ++ stored p')).
  Proof.
    intros o h Ho. induction fuel as [|fuel IH]; intros jl pl dl seen res p I Hf; [lia|]. cbn [pop_loop].
    assert (Stop : exists res' p', Some (res, p) = Some (res', p') /\ SInv o h p' /\
      (exists e, res' = res ++ e /\ Permutation (stored p) (e ++ stored p'))).
    { exists res, p. split; [reflexivity|]. split; [exact I|]. exists []. rewrite app_nil_r. auto. }
    destruct (jl <=? 0); [exact Stop|]. pose proof (pop_s o h p jl) as Q.
    destruct (pk_pop jl p) as [[t p1]|]; [|exact Stop]. destruct (Q t p1 I eq_refl) as (I1 & PS & L). clear Q.
    destruct (charge (t_legend t) seen (t_size t)) as [cur seen'].
    assert (One : exists res' p', Some (res ++ [t_rec t], p1) = Some (res', p') /\ SInv o h p' /\
      (exists e, res' = res ++ e /\ Permutation (stored p) (e ++ stored p'))).
    { eexists _, _. split; [reflexivity|]. split; [exact I1|]. exists [t_rec t]. split; [reflexivity|exact PS]. }
    destruct (cur <=? jl).
    - cbv zeta. match goal with |- context [if ?b then Some (res ++ _, p1) else _] => destruct b end; [exact One|].
      match goal with |- context [if ?b then Some (res ++ _, p1) else _] => destruct b end; [exact One|].
      match goal with |- context [pop_loop esc fuel ?a ?b ?c ?d ?e p1] => destruct (IH a b c d e p1 I1) as (res' & p' & E & I' & (e' & -> & P')) end; [lia|].
      rewrite E. eexists _, _. split; [reflexivity|]. split; [exact I'|]. exists (t_rec t :: e').
      split; [rewrite <- app_assoc; reflexivity|]. rewrite PS. simpl. now constructor.
    - destruct (push_s o h p1 (t_rec t) Ho I1) as (p2 & -> & I2 & P2).
      eexists _, _. split; [reflexivity|]. split; [exact I2|]. exists []. rewrite app_nil_r. split; [reflexivity|].
      rewrite PS. simpl. now rewrite P2.
  Qed.

  (** Without a parser: the calls end. *)
  Lemma multi_pop_t : forall o h p, opts_ok o -> SInv o h p ->
    exists b p', pk_multi_pop esc p = Some (b, p') /\ SInv o h p' /\
      match b with None => True | Some m => (length (pk_top p') < length (pk_top p))%nat end.
  Proof.
    intros o h p Ho I. unfold pk_multi_pop. destruct (pk_top p) as [|t0 l0] eqn:E; [eexists _, _; split; [reflexivity|]; auto|].
    rewrite <- E. assert (EO : pk_opt p = o) by apply I. rewrite EO.
    destruct (po_json o <? mpush_size esc (po_jcompact o) mpush0); [eexists _, _; split; [reflexivity|]; auto|].
    match goal with |- context [pop_loop esc ?f ?a ?b ?c ?d ?e p] =>
      destruct (pop_loop_s o h Ho f a b c d e p I) as (res & p1 & -> & I1 & (e' & -> & P)) end; [lia|].
    simpl app. destruct e' as [|x e']; [eexists _, _; split; [reflexivity|]; auto|].
    apply Permutation_length in P. unfold stored in P. rewrite app_length, !map_length in P. simpl in P.
    destruct (po_ncompact o) eqn:N.
    - destruct (compact_total (po_sep o) [] (x :: e')) as (b & m & -> & _). eexists _, _. split; [reflexivity|].
      split; [exact I1|]. lia.
    - eexists _, _. split; [reflexivity|]. split; [exact I1|]. lia.
  Qed.

  Lemma loop_x_t : forall o h, opts_ok o -> forall fuel k p, SInv o h p -> (length (pk_top p) < fuel)%nat ->
    exists ms b k' p', pushout_loop_x esc fuel k p = Some (ms, b, k', p') /\ SInv o h p'.
  Proof.
    intros o h Ho. induction fuel as [|fuel IH]; intros k p I Hf; [lia|]. cbn [pushout_loop_x].
    destruct (multi_pop_t o h p Ho I) as (b & p1 & -> & I1 & L). destruct b as [m|]; [|eexists _, _, _, _; eauto].
    assert (G : exists ms b k' p', match pushout_loop_x esc fuel (turn k) p1 with None => None
       | Some (ms, b, k, p2) => Some (m :: ms, b, k, p2) end = Some (ms, b, k', p') /\ SInv o h p').
    { destruct (IH (turn k) p1 I1) as (ms & b & k' & p' & -> & I2); [lia|]. eexists _, _, _, _. eauto. }
    destruct k as [[|j]|]; [eexists _, _, _, _; eauto|exact G|exact G].
  Qed.

  Lemma le_hollow : forall l, StronglySorted le_size l ->
    StronglySorted le_size (map (fun t => mk_top (t_size t) (hollow left (t_rec t)) (t_legend t)) l).
  Proof.
    induction 1 as [|t l H IH F]; simpl; constructor; [exact IH|]. rewrite Forall_map. eapply Forall_impl; [|exact F].
    unfold le_size. simpl. auto.
  Qed.

  Lemma pushout_x_t : forall o h, opts_ok o -> forall k p, SInv o h p ->
    exists q ms p', pk_pushout_x esc left k p = Some (q, ms, p') /\ SInv o h p'.
  Proof.
    intros o h Ho k p I. unfold pk_pushout_x. destruct (pk_handler p) eqn:EH; [|eexists _, _, _; eauto].
    destruct (loop_x_t o h Ho (S (length (pk_top p))) k p I) as (ms & b & k' & p1 & -> & I1); [lia|].
    destruct b; [eexists _, _, _; eauto|]. destruct (pk_top p1) as [|t l] eqn:E; [eexists _, _, _; eauto|]. rewrite <- E.
    destruct (compact_total sep0 [] (map t_rec (pk_top p1))) as (b & m & -> & _). destruct I1 as (A & B & C).
    assert (D : SInv o h (pk_set [] p1)). { split; [exact A|]. split; [exact B|constructor]. }
    destruct k' as [[|j]|]; [|eexists _, _, _; eauto|eexists _, _, _; eauto].
    eexists _, _, _. split; [reflexivity|]. split; [exact A|]. split; [exact B|]. simpl. now apply le_hollow.
  Qed.

  Lemma do_x_t : forall o h, opts_ok o -> forall c p, SInv o h p -> exists r p', pk_do_x esc left c p = Some (r, p') /\ SInv o h p'.
  Proof.
    intros o h Ho c p I. destruct c as [r|l|m| |k]; simpl.
    - destruct (push_s o h p r Ho I) as (p1 & -> & I1 & _). eauto.
    - destruct (pushes_s o h l p Ho I) as (p1 & -> & I1 & _). eauto.
    - pose proof (pop_s o h p m) as Q. destruct (pk_pop m p) as [[t p1]|]; [|eauto]. destruct (Q t p1 I eq_refl) as (I1 & _). eauto.
    - destruct (multi_pop_t o h p Ho I) as (b & p1 & -> & I1 & _). eauto.
    - destruct (pushout_x_t o h Ho k p I) as (q & ms & p1 & -> & I1). eauto.
  Qed.

  Lemma run_x_t : forall o h, opts_ok o -> forall cs p, SInv o h p -> exists rs p', pk_run_x esc left p cs = Some (rs, p') /\ SInv o h p'.
  Proof.
    intros o h Ho. induction cs as [|c cs IH]; intros p I; simpl; [eauto|].
    destruct (do_x_t o h Ho c p I) as (r & p1 & -> & I1). destruct (IH p1 I1) as (rs & p2 & -> & I2). eauto.
  Qed.

  Section Parser.
    Variable jp : jparser.
    Hypothesis OK : jparser_ok jp.

    Definition good (b : mpush) : Prop :=
      fst (recompact jp b) = true /\ map pu_data (mp_data b) = map pu_data (received jp b).
    Definition recv (bs : list mpush) : list push := flat_map (received jp) bs.

    Lemma multi_pop_s : forall o h p b p', opts_ok o -> SInv o h p -> names_weight (stored p) <= two64 ->
      pk_multi_pop esc p = Some (b, p') ->
        match b with
        | None => Permutation (stored p) (stored p')
        | Some m => good m /\ Permutation (stored p) (received jp m ++ stored p')
        end.
    Proof.
      intros o h p b p' Ho I Hw H. unfold pk_multi_pop in H. destruct (pk_top p) as [|t0 l0] eqn:E; [injection H as <- <-; reflexivity|].
      rewrite <- E in H. assert (EO : pk_opt p = o) by apply I. rewrite EO in H.
      destruct (po_json o <? mpush_size esc (po_jcompact o) mpush0); [injection H as <- <-; reflexivity|].
      match type of H with context [pop_loop esc ?f ?a ?b ?c ?d ?e p] =>
        destruct (pop_loop_s o h Ho f a b c d e p I) as (res & p1 & F & I1 & (e' & -> & P)) end; [lia|].
      rewrite F in H. simpl app in H. destruct e' as [|x e']; [injection H as <- <-; exact P|].
      set (l := x :: e') in *.
      destruct (po_ncompact o) eqn:N.
      - destruct (compact_readable jp OK (po_sep o) l (Ho N)) as (m & Q & S & (R1 & R2 & R3)).
        { rewrite (names_weight_perm _ _ P), names_weight_app in Hw. pose proof (names_weight_nonneg (stored p1)). lia. }
        rewrite Q in H. injection H as <- <-. split; [split; [exact R1|]|]; rewrite R2; [exact R3|exact P].
      - injection H as <- <-. unfold good, received. simpl. auto.
    Qed.

    Lemma loop_x_s : forall o h, opts_ok o -> forall fuel k p ms b k' p', SInv o h p -> names_weight (stored p) <= two64 ->
      pushout_loop_x esc fuel k p = Some (ms, b, k', p') ->
      SInv o h p' /\ Forall good ms /\ Permutation (stored p) (recv ms ++ stored p').
    Proof.
      intros o h Ho. induction fuel as [|fuel IH]; intros k p ms b k' p' I Hw H; [discriminate|]. cbn [pushout_loop_x] in H.
      destruct (multi_pop_t o h p Ho I) as (x & p1 & E & I1 & _). rewrite E in H.
      pose proof (multi_pop_s o h p x p1 Ho I Hw E) as Q. destruct x as [m|].
      - destruct Q as (G & P).
        assert (W : names_weight (stored p1) <= two64).
        { rewrite (names_weight_perm _ _ P), names_weight_app in Hw. pose proof (names_weight_nonneg (received jp m)). lia. }
        assert (K : match pushout_loop_x esc fuel (turn k) p1 with None => None
           | Some (ms, b, k, p2) => Some (m :: ms, b, k, p2) end = Some (ms, b, k', p') ->
           SInv o h p' /\ Forall good ms /\ Permutation (stored p) (recv ms ++ stored p')).
        { intros K. destruct (pushout_loop_x esc fuel (turn k) p1) as [[[[ms' b'] k''] p2]|] eqn:F; [|discriminate].
          injection K as <- <- <- <-. destruct (IH _ _ _ _ _ _ I1 W F) as (A & B & C). split; [exact A|]. split; [constructor; auto|].
          simpl. rewrite P, C, app_assoc. reflexivity. }
        destruct k as [[|j]|]; [|exact (K H)|exact (K H)]. injection H as <- <- <- <-.
        split; [exact I1|]. split; [constructor; auto|]. simpl. now rewrite app_nil_r.
      - injection H as <- <- <- <-. split; [exact I1|]. split; [constructor|exact Q].
    Qed.

    Lemma recv_app : forall a b, recv (a ++ b) = recv a ++ recv b.
    Proof. intros. apply flat_map_app. Qed.

    (** pushout: what is handed over, what is kept and, behind the loop, what is left of the records moved from. *)
    Lemma pushout_x_s : forall o h, opts_ok o -> forall k p q ms p', SInv o h p -> names_weight (stored p) <= two64 ->
      pk_pushout_x esc left k p = Some (q, ms, p') ->
      SInv o h p' /\ Forall good ms /\
      match q with
      | OReturned n => if h then Permutation (stored p) (recv ms) /\ stored p' = [] else n = O /\ ms = [] /\ p' = p
      | OThrewLoop => h = true /\ Permutation (stored p) (recv ms ++ stored p')
      | OThrewTail => h = true /\ Permutation (stored p) (recv ms) /\
          exists bs m, ms = bs ++ [m] /\ stored p' = map (hollow left) (received jp m) /\ received jp m <> []
      end.
    Proof.
      intros o h Ho k p q ms p' I Hw H. unfold pk_pushout_x in H. assert (EH : pk_handler p = h) by apply I. rewrite EH in H.
      destruct h; [|injection H as <- <- <-; split; [exact I|]; split; [constructor|]; auto].
      destruct (pushout_loop_x esc (S (length (pk_top p))) k p) as [[[[ms1 b] k1] p1]|] eqn:E; [|discriminate].
      destruct (loop_x_s o true Ho _ _ _ _ _ _ _ I Hw E) as (I1 & G & P).
      destruct b; [injection H as <- <- <-; auto|].
      destruct (pk_top p1) as [|t l] eqn:T.
      { injection H as <- <- <-. split; [exact I1|]. split; [exact G|]. unfold stored in *. rewrite T in *.
        simpl in P. rewrite app_nil_r in P. auto. }
      rewrite <- T in *.
      destruct (compact_readable jp OK sep0 (map t_rec (pk_top p1))) as (m & Q & S & (R1 & R2 & R3)); [discriminate| |].
      { rewrite (names_weight_perm _ _ P), names_weight_app in Hw. fold (stored p1). pose proof (names_weight_nonneg (recv ms1)). lia. }
      rewrite Q in H. destruct I1 as (X1 & X2 & X3).
      assert (GG : Forall good (ms1 ++ [m])).
      { apply Forall_app. split; [exact G|]. constructor; [|constructor]. split; [exact R1|]. now rewrite R2. }
      assert (PP : Permutation (stored p) (recv (ms1 ++ [m]))).
      { rewrite recv_app. simpl. rewrite app_nil_r, R2. exact P. }
      assert (D : OReturned (length ms1) = q -> ms1 ++ [m] = ms -> pk_set [] p1 = p' ->
        SInv o true p' /\ Forall good ms /\ (match q with OReturned n => Permutation (stored p) (recv ms) /\ stored p' = [] | _ => False end)).
      { intros <- <- <-. split; [split; [exact X1|]; split; [exact X2|constructor]|]. split; [exact GG|]. split; [exact PP|reflexivity]. }
      destruct k1 as [[|j]|].
      - injection H as <- <- <-. split; [split; [exact X1|]; split; [exact X2|]; simpl; now apply le_hollow|]. split; [exact GG|].
        split; [reflexivity|]. split; [exact PP|]. exists ms1, m. split; [reflexivity|]. split.
        + rewrite R2. unfold stored. simpl. now rewrite !map_map.
        + rewrite R2. rewrite T. simpl. discriminate.
      - injection H as A B C. destruct (D A B C) as (U & V & W). split; [exact U|]. split; [exact V|]. destruct q; [exact W|destruct W|destruct W].
      - injection H as A B C. destruct (D A B C) as (U & V & W). split; [exact U|]. split; [exact V|]. destruct q; [exact W|destruct W|destruct W].
    Qed.

    Lemma do_x_s : forall o h, opts_ok o -> forall c p r p', SInv o h p -> names_weight (y_pushed c ++ stored p) <= two64 ->
      pk_do_x esc left c p = Some (r, p') ->
      SInv o h p' /\ Forall good (y_batches r) /\
      Permutation (y_pushed c ++ y_copies left jp r ++ stored p) (recv (y_batches r) ++ y_singles r ++ stored p').
    Proof.
      intros o h Ho c p r p' I Hw H.
      assert (W2 : names_weight (stored p) <= two64).
      { rewrite names_weight_app in Hw. pose proof (names_weight_nonneg (y_pushed c)). lia. }
      destruct c as [x|l|m| |k]; simpl in H.
      - destruct (push_s o h p x Ho I) as (p1 & E & I1 & P). rewrite E in H. injection H as <- <-.
        split; [exact I1|]. split; [constructor|]. simpl. now symmetry.
      - destruct (pushes_s o h l p Ho I) as (p1 & E & I1 & P). rewrite E in H. injection H as <- <-.
        split; [exact I1|]. split; [constructor|]. simpl. now symmetry.
      - pose proof (pop_s o h p m) as Q. destruct (pk_pop m p) as [[t p1]|]; injection H as <- <-.
        + destruct (Q t p1 I eq_refl) as (I1 & P & _). split; [exact I1|]. split; [constructor|exact P].
        + split; [exact I|]. split; [constructor|reflexivity].
      - destruct (multi_pop_t o h p Ho I) as (b & p1 & E & I1 & _). rewrite E in H. injection H as <- <-.
        pose proof (multi_pop_s o h p b p1 Ho I W2 E) as Q. split; [exact I1|]. destruct b as [m|].
        + destruct Q as (G & P). split; [constructor; auto|]. simpl. now rewrite app_nil_r.
        + split; [constructor|exact Q].
      - destruct (pk_pushout_x esc left k p) as [[[q ms] p1]|] eqn:E; [|discriminate]. injection H as <- <-.
        destruct (pushout_x_s o h Ho k p q ms p1 I W2 E) as (I1 & G & Q). split; [exact I1|]. split; [exact G|].
        cbn [y_pushed y_batches y_singles]. simpl app. destruct q as [n| |].
        + cbn [y_copies]. destruct h; [destruct Q as (P & ->); now rewrite app_nil_r|destruct Q as (_ & -> & ->); reflexivity].
        + cbn [y_copies]. simpl. apply Q.
        + destruct Q as (_ & P & bs & m & -> & S & _). cbn [y_copies y_refused]. rewrite rev_app_distr. simpl rev. cbn [app].
          simpl flat_map. rewrite app_nil_r, S, <- P. apply Permutation_app_comm.
    Qed.

    Lemma run_x_s : forall o h, opts_ok o -> forall cs p rs p', SInv o h p ->
      names_weight (flat_map y_pushed cs ++ flat_map (y_copies left jp) rs ++ stored p) <= two64 ->
      pk_run_x esc left p cs = Some (rs, p') ->
      SInv o h p' /\ Forall good (flat_map y_batches rs) /\
      Permutation (flat_map y_pushed cs ++ flat_map (y_copies left jp) rs ++ stored p)
        (recv (flat_map y_batches rs) ++ flat_map y_singles rs ++ stored p').
    Proof.
      intros o h Ho. induction cs as [|c cs IH]; intros p rs p' I Hw H; simpl in H.
      - injection H as <- <-. split; [exact I|]. split; [constructor|reflexivity].
      - destruct (pk_do_x esc left c p) as [[r p1]|] eqn:E; [|discriminate].
        destruct (pk_run_x esc left p1 cs) as [[rs' p2]|] eqn:F; [|discriminate]. injection H as <- <-.
        cbn [flat_map] in *. rewrite !names_weight_app in Hw.
        pose proof (names_weight_nonneg (flat_map y_pushed cs)) as N1. pose proof (names_weight_nonneg (flat_map (y_copies left jp) rs')) as N2.
        pose proof (names_weight_nonneg (y_copies left jp r)) as N3.
        destruct (do_x_s o h Ho c p r p1 I) as (I1 & G1 & P1); [rewrite names_weight_app; lia|exact E|].
        pose proof (names_weight_perm _ _ P1) as WP. rewrite !names_weight_app in WP.
        pose proof (names_weight_nonneg (recv (y_batches r))). pose proof (names_weight_nonneg (y_singles r)).
        destruct (IH p1 rs' p2 I1) as (I2 & G2 & P2); [rewrite !names_weight_app; lia|exact F|].
        split; [exact I2|]. split; [apply Forall_app; auto|]. rewrite recv_app.
        transitivity ((flat_map y_pushed cs ++ flat_map (y_copies left jp) rs') ++ (y_pushed c ++ y_copies left jp r ++ stored p)).
        { rewrite !app_assoc. apply Permutation_app_tail. rewrite <- !app_assoc.
          rewrite (Permutation_app_comm (y_pushed c)). rewrite <- !app_assoc. apply Permutation_app_head.
          rewrite (Permutation_app_comm (y_copies left jp r) (flat_map (y_copies left jp) rs' ++ y_pushed c)). now rewrite <- app_assoc. }
        rewrite P1.
        transitivity (recv (y_batches r) ++ y_singles r ++ (flat_map y_pushed cs ++ flat_map (y_copies left jp) rs' ++ stored p1)).
        { rewrite !app_assoc. apply Permutation_app_tail. rewrite <- !app_assoc.
          rewrite (app_assoc (recv (y_batches r))), (app_assoc (flat_map y_pushed cs)). apply Permutation_app_comm. }
        rewrite P2. rewrite <- !app_assoc. apply Permutation_app_head. rewrite !app_assoc. apply Permutation_app_tail.
        rewrite <- !app_assoc. rewrite (Permutation_app_comm (y_singles r)). rewrite <- !app_assoc. apply Permutation_app_head.
        apply Permutation_app_comm.
    Qed.
  End Parser.
End Esc.
