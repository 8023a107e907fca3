(** Lemmas for C97. *)
From Coq Require Import Ascii ZArith NArith List Bool Permutation Lia Sorted.
From Verif Require Import Base ModelTypes ModelRegistry ModelJson ModelPacker SpecPacker PackName PackerProofs PackerMore
  ModelPackThrow SpecPackThrow PackThrowProofs PackThrowFinal ModelPackAlloc SpecPackAlloc.
Import ListNotations.
Local Open Scope Z_scope.
Local Open Scope list_scope.

Section Esc.
  Variable esc : name -> name.
  Variable left : name -> name.

  (** States that ordinary calls lead to. *)
  Definition Reach (p p' : packer) : Prop := exists cs rs, pk_run esc p cs = Some (rs, p').
  Lemma Reach_refl p : Reach p p. Proof. exists [], []. reflexivity. Qed.
  Lemma Reach_trans p p1 p2 : Reach p p1 -> Reach p1 p2 -> Reach p p2.
  Proof.
    intros (cs & rs & E) (cs2 & rs2 & E2). exists (cs ++ cs2). revert p rs E. induction cs as [|c cs IH]; intros p rs E; simpl in E.
    - injection E as <- <-. exists rs2. exact E2.
    - destruct (pk_do esc c p) as [[r q]|] eqn:D; [|discriminate]. destruct (pk_run esc q cs) as [[rs' q']|] eqn:R; [|discriminate].
      injection E as <- ->. destruct (IH q rs' R) as (rs3 & H). exists (r :: rs3). simpl. now rewrite D, H.
  Qed.
  Lemma Reach_one c p r p' : pk_do esc c p = Some (r, p') -> Reach p p'.
  Proof. intros E. exists [c], [r]. simpl. now rewrite E. Qed.

  Lemma pop_loop_f_s : forall o h, forall fuel i jl pl dl seen res p lost p1, SInv o h p ->
    pop_loop_f fuel i jl pl dl seen res p = Some (lost, p1) ->
    SInv o h p1 /\ Reach p p1 /\ exists e, lost = res ++ e /\ Permutation (stored p) (e ++ stored p1).
  Proof.
    intros o h. induction fuel as [|fuel IH]; intros i jl pl dl seen res p lost p1 I H; [discriminate|]. cbn [pop_loop_f] in H.
    destruct (jl <=? 0); [discriminate|]. destruct (pk_pop jl p) as [[t q]|] eqn:E; [|discriminate].
    destruct (pop_s o h p jl t q I E) as (I1 & P & _).
    assert (R : Reach p q). { apply (Reach_one (PPop jl) p (RPopped (Some (t_size t, t_rec t)))). simpl. now rewrite E. }
    destruct i as [|i].
    - injection H as <- <-. split; [exact I1|]. split; [exact R|]. exists [t_rec t]. split; [reflexivity|exact P].
    - destruct (charge (t_legend t) seen (t_size t)) as [cur seen']. destruct (cur <=? jl); [|discriminate]. cbv zeta in H.
      match type of H with (if ?b then None else _) = _ => destruct b end; [discriminate|].
      match type of H with (if ?b then None else _) = _ => destruct b end; [discriminate|].
      apply IH in H; [|exact I1]. destruct H as (I2 & R2 & e & -> & P2). split; [exact I2|]. split; [eapply Reach_trans; eassumption|].
      exists (t_rec t :: e). split; [rewrite <- app_assoc; reflexivity|]. rewrite P. simpl. now constructor.
  Qed.

  (** The records taken out by the failing call are the first ones of the batch, or the whole batch and the record put back. *)
  Lemma pop_loop_f_loop : forall o h, opts_ok o -> forall fuel i jl pl dl seen res p lost p1 out p', SInv o h p -> (length (pk_top p) < fuel)%nat ->
    pop_loop_f fuel i jl pl dl seen res p = Some (lost, p1) -> pop_loop esc fuel jl pl dl seen res p = Some (out, p') ->
    (exists rest, out = lost ++ rest) \/ (exists x, lost = out ++ [x] /\ In x (stored p')).
  Proof.
    intros o h Ho. induction fuel as [|fuel IH]; intros i jl pl dl seen res p lost p1 out p' I L H G; [discriminate|].
    cbn [pop_loop_f] in H. cbn [pop_loop] in G.
    destruct (jl <=? 0); [discriminate|]. destruct (pk_pop jl p) as [[t q]|] eqn:E; [|discriminate].
    destruct (pop_s o h p jl t q I E) as (I1 & P & LQ).
    destruct (charge (t_legend t) seen (t_size t)) as [cur seen']. destruct (cur <=? jl).
    - cbv zeta in H, G.
      assert (Stop : forall X, Some (res ++ [t_rec t], q) = Some (out, p') -> (match i with O => Some (res ++ [t_rec t], q) | S _ => X end) = Some (lost, p1) ->
        X = None -> (exists rest, out = lost ++ rest)).
      { intros X A B ->. injection A as <- <-. destruct i; [|discriminate]. injection B as <- <-. exists []. now rewrite app_nil_r. }
      destruct (negb (po_push (pk_opt p) =? 0) && _); [apply or_introl; eapply Stop; [exact G|exact H|reflexivity]|].
      destruct (negb (po_data (pk_opt p) =? 0) && _); [apply or_introl; eapply Stop; [exact G|exact H|reflexivity]|]. clear Stop.
      destruct i as [|i].
      + injection H as <- <-. apply or_introl.
        match type of G with pop_loop esc fuel ?a ?b ?c ?d ?e q = _ => destruct (pop_loop_s esc o h Ho fuel a b c d e q I1) as (r2 & p2 & E2 & _ & (e2 & -> & _)) end; [lia|].
        rewrite E2 in G. injection G as <- <-. now exists e2.
      + eapply IH; [exact I1| |exact H|exact G]. lia.
    - destruct (push_s esc o h q (t_rec t) Ho I1) as (p2 & E2 & _ & P2). rewrite E2 in G. injection G as <- <-.
      destruct i; [|discriminate]. injection H as <- <-. right. exists (t_rec t). split; [reflexivity|].
      eapply Permutation_in; [symmetry; exact P2|]. now left.
  Qed.

  Definition mlost (e : mend) : list push := match e with MThrew l => l | _ => [] end.
  Lemma multi_pop_f_t : forall o h p f, opts_ok o -> SInv o h p -> exists e p', pk_multi_pop_f esc f p = Some (e, p') /\ SInv o h p' /\ Reach p p' /\
    match e with MRet b => pk_multi_pop esc p = Some (b, p') | MThrew lost => Permutation (stored p) (lost ++ stored p') end.
  Proof.
    intros o h p f Ho I. unfold pk_multi_pop_f.
    assert (Pl : exists e p', plain_pop esc p = Some (e, p') /\ SInv o h p' /\ Reach p p' /\
      match e with MRet b => pk_multi_pop esc p = Some (b, p') | MThrew lost => Permutation (stored p) (lost ++ stored p') end).
    { destruct (multi_pop_t esc o h p Ho I) as (b & p' & E & I1 & _). exists (MRet b), p'. unfold plain_pop. rewrite E.
      split; [reflexivity|]. split; [exact I1|]. split; [|reflexivity]. apply (Reach_one PMultiPop p (RBatch b)). simpl. now rewrite E. }
    destruct (pk_top p) as [|t0 l0] eqn:ET; [exact Pl|]. rewrite <- ET. cbv zeta. destruct f as [|i|].
    - exists (MThrew []), p. split; [reflexivity|]. split; [exact I|]. split; [apply Reach_refl|reflexivity].
    - destruct (po_json (pk_opt p) <? _); [exact Pl|].
      match goal with |- context [pop_loop_f ?a ?b ?c ?d ?e ?x ?y p] => destruct (pop_loop_f a b c d e x y p) as [[lost p1]|] eqn:E end; [|exact Pl].
      eapply pop_loop_f_s in E; [|exact I]. destruct E as (I1 & R & e & -> & P). eexists _, _. split; [reflexivity|]. auto.
    - destruct (po_json (pk_opt p) <? _) eqn:J; [exact Pl|].
      match goal with |- context [pop_loop esc ?f ?a ?b ?c ?d ?e p] =>
        destruct (pop_loop_s esc o h Ho f a b c d e p I) as (res & p1 & F & I1 & (e' & -> & P)) end; [lia|].
      rewrite F. cbn [app] in *. destruct e' as [|x e']; [exact Pl|]. eexists _, _. split; [reflexivity|]. split; [exact I1|]. split; [|exact P].
      destruct (multi_pop_t esc o h p Ho I) as (b & p2 & E & _ & _).
      assert (p2 = p1) as ->.
      { unfold pk_multi_pop in E. rewrite ET in E. rewrite <- ET in E. rewrite J, F in E.
        destruct (po_ncompact (pk_opt p)); [destruct (compact _) as [[? ?]|]; [|discriminate]|]; congruence. }
      apply (Reach_one PMultiPop p (RBatch b)). simpl. now rewrite E.
  Qed.

  Lemma loop_f_t : forall o h, opts_ok o -> forall k f p, SInv o h p ->
    exists e, pushout_loop_f esc k f p = Some e /\ match e with None => True | Some (ms, lost, p1) => SInv o h p1 /\ Reach p p1 end.
  Proof.
    intros o h Ho. induction k as [|k IH]; intros f p I; cbn [pushout_loop_f].
    - destruct (multi_pop_f_t o h p f Ho I) as (e & p1 & -> & I1 & R & _). destruct e; [exists None; auto|]. eexists. split; [reflexivity|]. simpl. auto.
    - destruct (multi_pop_t esc o h p Ho I) as (b & p1 & E & I1 & _). rewrite E. destruct b as [m|]; [|exists None; auto].
      destruct (IH f p1 I1) as (e & -> & H). destruct e as [[[ms lost] p2]|]; [|exists None; auto]. destruct H as (I2 & R2).
      eexists. split; [reflexivity|]. cbn. split; [exact I2|]. eapply Reach_trans; [|exact R2].
      apply (Reach_one PMultiPop p (RBatch (Some m))). simpl. now rewrite E.
  Qed.

  Lemma out_loop_t : forall o h, opts_ok o -> forall fuel p, SInv o h p -> (length (pk_top p) < fuel)%nat ->
    exists ms p1, pushout_loop esc fuel p = Some (ms, p1) /\ SInv o h p1 /\ Reach p p1.
  Proof.
    intros o h Ho. induction fuel as [|fuel IH]; intros p I L; [lia|]. cbn [pushout_loop].
    destruct (multi_pop_t esc o h p Ho I) as (b & p1 & E & I1 & L1). rewrite E.
    assert (R : Reach p p1). { apply (Reach_one PMultiPop p (RBatch b)). simpl. now rewrite E. }
    destruct b as [m|]; [|eexists _, _; split; [reflexivity|]; auto].
    destruct (IH p1 I1) as (ms & p2 & -> & I2 & R2); [lia|]. eexists _, _. split; [reflexivity|]. split; [exact I2|]. eapply Reach_trans; eassumption.
  Qed.

  Lemma plain_out_t : forall o h, opts_ok o -> forall p, SInv o h p -> exists n ms p1, pk_pushout esc p = Some (n, ms, p1) /\ SInv o h p1 /\ Reach p p1.
  Proof.
    intros o h Ho p I. destruct (pushout_x_t esc left o h Ho None p I) as (q & ms & p1 & E & I1). rewrite pushout_x_none in E.
    destruct (pk_pushout esc p) as [[[n ms'] p1']|] eqn:F; [|discriminate]. injection E as _ _ ->. exists n, ms', p1.
    split; [reflexivity|]. split; [exact I1|]. apply (Reach_one PPushout p (RPushout n ms')). simpl. now rewrite F.
  Qed.

  Definition hollow_top (t : top) : top := mk_top (t_size t) (hollow left (t_rec t)) (t_legend t).
  Lemma hollow_sorted : forall j l, StronglySorted le_size l -> StronglySorted le_size (map hollow_top (firstn j l) ++ skipn j l).
  Proof.
    induction j as [|j IH]; intros l S; [exact S|]. destruct l as [|t l]; [constructor|]. inversion S as [|? ? S1 F]; subst. simpl.
    constructor; [apply IH; exact S1|]. apply Forall_forall. intros x X. apply in_app_iff in X. rewrite Forall_forall in F.
    assert (In x l \/ exists y, In y l /\ x = hollow_top y) as [Y|(y & Y & ->)].
    { destruct X as [X|X].
      - apply in_map_iff in X. destruct X as (y & <- & Y). right. exists y. split; [|reflexivity]. rewrite <- (firstn_skipn j l). apply in_app_iff. auto.
      - left. rewrite <- (firstn_skipn j l). apply in_app_iff. auto. }
    - apply F in Y. exact Y.
    - apply F in Y. exact Y.
  Qed.

  Lemma do_f_t : forall o h, opts_ok o -> forall c p, SInv o h p -> exists r p', pk_do_f esc left c p = Some (r, p') /\ SInv o h p' /\
    (z_copies left c r = [] -> Reach p p').
  Proof.
    intros o h Ho c p I. destruct c as [r b|l f|m|f|f].
    - destruct b; cbn [pk_do_f]; [eexists _, _; split; [reflexivity|]; split; [exact I|intros _; apply Reach_refl]|].
      destruct (push_s esc o h p r Ho I) as (p1 & E & I1 & _). rewrite E. eexists _, _. split; [reflexivity|]. split; [exact I1|]. intros _.
      apply (Reach_one (PPush r) p RNothing). simpl. now rewrite E.
    - assert (G : forall l, exists p1, pk_pushes esc l p = Some p1 /\ SInv o h p1 /\ Reach p p1).
      { clear l f. intros l. destruct (pushes_s esc o h l p Ho I) as (p1 & E & I1 & _). exists p1. split; [exact E|]. split; [exact I1|].
        apply (Reach_one (PMulti l) p RNothing). simpl. now rewrite E. }
      destruct f as [i|]; cbn [pk_do_f]; [destruct (G (firstn i l)) as (p1 & -> & I1 & R)|destruct (G l) as (p1 & -> & I1 & R)];
        eexists _, _; split; [reflexivity| |reflexivity|]; auto.
    - cbn [pk_do_f]. destruct (pk_pop m p) as [[t p1]|] eqn:E; eexists _, _; (split; [reflexivity|]).
      + destruct (pop_s o h p m t p1 I E) as (I1 & _). split; [exact I1|]. intros _.
        apply (Reach_one (PPop m) p (RPopped (Some (t_size t, t_rec t)))). simpl. now rewrite E.
      + split; [exact I|]. intros _. apply Reach_refl.
    - cbn [pk_do_f]. destruct f as [f|].
      + destruct (multi_pop_f_t o h p f Ho I) as (e & p1 & -> & I1 & R & _). destruct e; eexists _, _; (split; [reflexivity|]); auto.
      + destruct (multi_pop_t esc o h p Ho I) as (b & p1 & E & I1 & _). unfold plain_pop. rewrite E. eexists _, _. split; [reflexivity|].
        split; [exact I1|]. intros _. apply (Reach_one PMultiPop p (RBatch b)). simpl. now rewrite E.
    - cbn [pk_do_f].
      assert (Pl : forall c, exists r p', match plain_out esc p with None => None | Some (ZRet n, bs, p) => Some (ZOut n bs, p)
          | Some (ZThrew lost, bs, p) => Some (ZFailed bs lost, p) end = Some (r, p') /\ SInv o h p' /\ (z_copies left c r = [] -> Reach p p')).
      { intros c. destruct (plain_out_t o h Ho p I) as (n & ms & p1 & E & I1 & R). unfold plain_out. rewrite E. eexists _, _. split; [reflexivity|]. auto. }
      destruct f as [f|]; [|apply Pl]. unfold pk_pushout_f. destruct (pk_handler p); [|apply Pl]. destruct f as [k f|j].
      + destruct (loop_f_t o h Ho k f p I) as (e & -> & H). destruct e as [[[ms lost] p1]|]; [|apply Pl]. destruct H as (I1 & R).
        eexists _, _. split; [reflexivity|]. auto.
      + destruct (out_loop_t o h Ho (S (length (pk_top p))) p I) as (ms & p1 & E & I1 & R); [lia|]. rewrite E.
        destruct (pk_top p1) as [|t l] eqn:T; [apply Pl|]. rewrite <- T. destruct (j <=? length (pk_top p1))%nat eqn:J; [|apply Pl].
        eexists _, _. split; [reflexivity|]. split.
        * destruct I1 as (A & B & C). split; [exact A|]. split; [exact B|]. exact (hollow_sorted j _ C).
        * cbn [z_copies behind z_lost]. intros N. destruct j as [|j].
          -- cbn [firstn map app skipn]. destruct p1 as [a b c]. exact R.
          -- rewrite T in N. discriminate.
  Qed.

  Lemma run_f_t : forall o h, opts_ok o -> forall cs p, SInv o h p -> exists rs p', pk_run_f esc left p cs = Some (rs, p') /\ SInv o h p' /\
    (copies left cs rs = [] -> Reach p p').
  Proof.
    intros o h Ho. induction cs as [|c cs IH]; intros p I; cbn [pk_run_f].
    - eexists _, _. split; [reflexivity|]. split; [exact I|]. intros _. apply Reach_refl.
    - destruct (do_f_t o h Ho c p I) as (r & p1 & -> & I1 & R1). destruct (IH p1 I1) as (rs & p2 & -> & I2 & R2).
      eexists _, _. split; [reflexivity|]. split; [exact I2|]. cbn [copies]. intros N. apply app_eq_nil in N. destruct N as [N1 N2].
      eapply Reach_trans; [apply R1; exact N1|apply R2; exact N2].
  Qed.

  Lemma do_f_plain : forall c p, z_sound c -> pk_do_f esc left c p = option_map (fun q => (z_result (fst q), snd q)) (pk_do esc (z_plain c) p).
  Proof.
    intros c p H. destruct c as [r []|l [i|]|m|[f|]|[f|]]; cbn in H; try contradiction; cbn [pk_do_f pk_do z_plain].
    - destruct (pk_push esc r p); reflexivity.
    - destruct (pk_pushes esc l p); reflexivity.
    - destruct (pk_pop m p) as [[t q]|]; reflexivity.
    - unfold plain_pop. destruct (pk_multi_pop esc p) as [[b q]|]; reflexivity.
    - unfold plain_out. destruct (pk_pushout esc p) as [[[n ms] q]|]; reflexivity.
  Qed.
  Lemma run_f_plain : forall cs p, Forall z_sound cs ->
    pk_run_f esc left p cs = option_map (fun q => (map z_result (fst q), snd q)) (pk_run esc p (map z_plain cs)).
  Proof.
    induction cs as [|c cs IH]; intros p H; [reflexivity|]. inversion H; subst. cbn [pk_run_f pk_run map].
    rewrite do_f_plain by assumption. destruct (pk_do esc (z_plain c) p) as [[r q]|]; [|reflexivity]. cbn [option_map fst snd].
    rewrite IH by assumption. destruct (pk_run esc q (map z_plain cs)) as [[rs q']|]; reflexivity.
  Qed.

  Section Parser.
    Variable jp : jparser.
    Hypothesis OK : jparser_ok jp.
    Local Notation recv := (recv jp).
    Local Notation good := (good jp).

    (** What a failing call of multi_pop loses, from the call that does not fail. *)
    Lemma multi_pop_f_loss : forall o h p f lost p1, opts_ok o -> SInv o h p -> names_weight (stored p) <= two64 ->
      pk_multi_pop_f esc f p = Some (MThrew lost, p1) ->
      exists b p', pk_multi_pop esc p = Some (b, p') /\
        let l := match b with Some m => received jp m | None => [] end in
        (exists rest, l = lost ++ rest) \/ (exists x, lost = l ++ [x] /\ In x (stored p')).
    Proof.
      intros o h p f lost p1 Ho I W H. destruct (multi_pop_t esc o h p Ho I) as (b & p' & E & _ & _). exists b, p'. split; [exact E|]. cbv zeta.
      unfold pk_multi_pop_f in H.
      assert (Pl : plain_pop esc p <> Some (MThrew lost, p1)). { unfold plain_pop. destruct (pk_multi_pop esc p) as [[? ?]|]; discriminate. }
      destruct (pk_top p) as [|t0 l0] eqn:T; [contradiction|]. rewrite <- T in H. assert (EO : pk_opt p = o) by apply I. rewrite EO in H. cbv zeta in H.
      destruct f as [|i|].
      - injection H as <- <-. left. eexists. reflexivity.
      - unfold pk_multi_pop in E. rewrite T in E. rewrite <- T in E. rewrite EO in E.
        destruct (po_json o <? _); [contradiction|].
        destruct (pop_loop_f _ _ _ _ _ _ _ p) as [[l1 q1]|] eqn:F; [|contradiction]. injection H as -> ->.
        match type of E with context [pop_loop esc ?f ?a ?b ?c ?d ?e p] =>
          destruct (pop_loop_s esc o h Ho f a b c d e p I) as (res & q & G & I1 & (e' & -> & P)) end; [lia|].
        pose proof (pop_loop_f_loop o h Ho _ _ _ _ _ _ _ _ _ _ _ _ I (le_n _) F G) as K. rewrite G in E. cbn [app] in *.
        destruct e' as [|x e']; [injection E as <- <-; exact K|].
        destruct (po_ncompact o) eqn:N.
        + destruct (compact_readable jp OK (po_sep o) (x :: e') (Ho N)) as (m & Q & S & (R1 & R2 & R3)).
          { rewrite (names_weight_perm _ _ P), names_weight_app in W. pose proof (names_weight_nonneg (stored q)). lia. }
          rewrite Q in E. injection E as <- <-. rewrite R2. exact K.
        + injection E as <- <-. unfold received. cbn. exact K.
      - unfold pk_multi_pop in E. rewrite T in E. rewrite <- T in E. rewrite EO in E.
        destruct (po_json o <? _); [contradiction|].
        match type of E with context [pop_loop esc ?f ?a ?b ?c ?d ?e p] =>
          destruct (pop_loop_s esc o h Ho f a b c d e p I) as (res & q & G & I1 & (e' & -> & P)) end; [lia|].
        rewrite G in E, H. cbn [app] in *.
        destruct e' as [|x e']; [contradiction|]. injection H as <- <-. left. exists []. rewrite app_nil_r.
        destruct (po_ncompact o) eqn:N.
        + destruct (compact_readable jp OK (po_sep o) (x :: e') (Ho N)) as (m & Q & S & (R1 & R2 & R3)).
          { rewrite (names_weight_perm _ _ P), names_weight_app in W. pose proof (names_weight_nonneg (stored q)). lia. }
          rewrite Q in E. injection E as <- <-. exact R2.
        + injection E as <- <-. reflexivity.
    Qed.

    Lemma loop_f_s : forall o h, opts_ok o -> forall k f p ms lost p1, SInv o h p -> names_weight (stored p) <= two64 ->
      pushout_loop_f esc k f p = Some (Some (ms, lost, p1)) -> Forall good ms /\ Permutation (stored p) (recv ms ++ lost ++ stored p1).
    Proof.
      intros o h Ho. induction k as [|k IH]; intros f p ms lost p1 I W H; cbn [pushout_loop_f] in H.
      - destruct (multi_pop_f_t o h p f Ho I) as (e & q & E & I1 & _ & P). rewrite E in H. destruct e as [b|l]; [discriminate|].
        injection H as <- <- <-. split; [constructor|exact P].
      - destruct (multi_pop_t esc o h p Ho I) as (b & q & E & I1 & _). rewrite E in H.
        pose proof (multi_pop_s esc jp OK o h p b q Ho I W E) as Q. destruct b as [m|]; [|discriminate]. destruct Q as (G & P).
        destruct (pushout_loop_f esc k f q) as [[[[ms' lost'] p2]|]|] eqn:F; try discriminate. injection H as <- <- <-.
        destruct (IH f q ms' lost' p2 I1) as (G2 & P2); [|exact F|].
        { rewrite (names_weight_perm _ _ P), names_weight_app in W. pose proof (names_weight_nonneg (received jp m)). lia. }
        split; [constructor; assumption|]. cbn [recv flat_map]. rewrite P, P2. cbn. rewrite <- app_assoc. reflexivity.
    Qed.

    Lemma do_f_s : forall o h, opts_ok o -> forall c p r p', SInv o h p -> names_weight (z_pushed c ++ stored p) <= two64 ->
      pk_do_f esc left c p = Some (r, p') ->
      Forall good (z_batches r) /\
      Permutation (z_pushed c ++ z_copies left c r ++ stored p) (recv (z_batches r) ++ z_singles r ++ z_lost r ++ stored p').
    Proof.
      intros o h Ho c p r p' I Hw H.
      assert (W2 : names_weight (stored p) <= two64).
      { rewrite names_weight_app in Hw. pose proof (names_weight_nonneg (z_pushed c)). lia. }
      assert (PlO : forall c q, plain_out esc p = Some q -> z_pushed c = [] -> match q with (ZRet n, bs, p) => Some (ZOut n bs, p)
          | (ZThrew lost, bs, p) => Some (ZFailed bs lost, p) end = Some (r, p') ->
        Forall good (z_batches r) /\ Permutation (z_pushed c ++ z_copies left c r ++ stored p) (recv (z_batches r) ++ z_singles r ++ z_lost r ++ stored p')).
      { intros c0 q E -> K. unfold plain_out in E. destruct (pk_pushout esc p) as [[[n ms] p1]|] eqn:F; [|discriminate]. injection E as <-.
        injection K as <- <-.
        pose proof (do_x_s esc left jp OK o h Ho (YPushout None) p (YOut (OReturned n) ms) p1 I W2) as D.
        destruct D as (_ & G & P); [cbn [pk_do_x]; rewrite pushout_x_none, F; reflexivity|]. split; [exact G|].
        unfold z_copies. cbn [z_lost map]. destruct (behind c0); exact P. }
      destruct c as [x b|l f|m|f|f]; cbn [pk_do_f] in H.
      - destruct b; [injection H as <- <-; split; [constructor|reflexivity]|].
        destruct (push_s esc o h p x Ho I) as (p1 & E & I1 & P). rewrite E in H. injection H as <- <-. split; [constructor|]. cbn. now symmetry.
      - destruct f as [i|].
        + destruct (pushes_s esc o h (firstn i l) p Ho I) as (p1 & E & I1 & P). rewrite E in H. injection H as <- <-.
          destruct (i <? length l)%nat; (split; [constructor|]); cbn; now symmetry.
        + destruct (pushes_s esc o h l p Ho I) as (p1 & E & I1 & P). rewrite E in H. injection H as <- <-. split; [constructor|]. cbn. now symmetry.
      - destruct (pk_pop m p) as [[t p1]|] eqn:E; injection H as <- <-; (split; [constructor|]); cbn; [|reflexivity].
        apply (pop_s o h p m t p1 I E).
      - assert (Pl : forall b p1, pk_multi_pop esc p = Some (b, p1) -> Forall good (z_batches (ZBatch b)) /\
          Permutation (stored p) (recv (z_batches (ZBatch b)) ++ stored p1)).
        { intros b p1 E. pose proof (multi_pop_s esc jp OK o h p b p1 Ho I W2 E) as Q. destruct b as [m|]; cbn.
          - destruct Q as (G & P). split; [repeat constructor; apply G|]. now rewrite app_nil_r.
          - split; [constructor|exact Q]. }
        destruct f as [f|].
        + destruct (multi_pop_f_t o h p f Ho I) as (e & p1 & E & _ & _ & P). rewrite E in H. destruct e as [b|lost]; injection H as <- <-.
          * apply (Pl b p1 P).
          * split; [constructor|exact P].
        + unfold plain_pop in H. destruct (pk_multi_pop esc p) as [[b p1]|] eqn:E; [|discriminate]. injection H as <- <-. apply (Pl b p1 eq_refl).
      - destruct f as [f|]; [|destruct (plain_out esc p) as [q|] eqn:E; [|discriminate]; apply (PlO (ZPushout None) q eq_refl eq_refl);
          destruct q as [[[] ?] ?]; exact H].
        assert (PP : match plain_out esc p with None => None | Some (ZRet n, bs, p) => Some (ZOut n bs, p)
          | Some (ZThrew lost, bs, p) => Some (ZFailed bs lost, p) end = Some (r, p') -> Forall good (z_batches r) /\
          Permutation (z_pushed (ZPushout (Some f)) ++ z_copies left (ZPushout (Some f)) r ++ stored p) (recv (z_batches r) ++ z_singles r ++ z_lost r ++ stored p')).
        { intros K. destruct (plain_out esc p) as [q|] eqn:E; [|discriminate]. apply (PlO (ZPushout (Some f)) q eq_refl eq_refl). destruct q as [[[] ?] ?]; exact K. }
        unfold pk_pushout_f in H. destruct (pk_handler p); [|exact (PP H)]. destruct f as [k f|j].
        + destruct (pushout_loop_f esc k f p) as [[[[ms lost] p1]|]|] eqn:E; [|exact (PP H)|discriminate].
          injection H as <- <-. destruct (loop_f_s o h Ho k f p ms lost p1 I W2 E) as (G & P). split; [exact G|exact P].
        + destruct (out_loop_t o h Ho (S (length (pk_top p))) p I) as (ms & p1 & E & I1 & R); [lia|]. rewrite E in H.
          destruct (pk_top p1) as [|t l] eqn:T; [exact (PP H)|]. rewrite <- T in H. destruct (j <=? length (pk_top p1))%nat eqn:J; [|exact (PP H)].
          injection H as <- <-.
          assert (LX : pushout_loop_x esc (S (length (pk_top p))) None p = Some (ms, false, None, p1)) by (rewrite loop_x_none, E; reflexivity).
          destruct (loop_x_s esc jp OK o h Ho _ _ _ _ _ _ _ I W2 LX) as (_ & G & P). split; [exact G|].
          cbn [z_pushed z_batches z_singles z_lost app]. unfold z_copies. cbn [behind z_lost]. unfold stored at 2. cbn [pk_set pk_top].
          rewrite map_app, !map_map. cbn [t_rec].
          transitivity (map (fun t => hollow left (t_rec t)) (firstn j (pk_top p1)) ++ recv ms ++ stored p1);
            [apply Permutation_app_head; exact P|].
          unfold stored. rewrite <- (firstn_skipn j (pk_top p1)) at 2. rewrite map_app.
          rewrite (Permutation_app_swap_app _ (recv ms)). apply Permutation_app_head. apply Permutation_app_swap_app.
    Qed.

    Lemma run_f_s : forall o h, opts_ok o -> forall cs p rs p', SInv o h p ->
      names_weight (flat_map z_pushed cs ++ copies left cs rs ++ stored p) <= two64 -> pk_run_f esc left p cs = Some (rs, p') ->
      Forall good (flat_map z_batches rs) /\
      Permutation (flat_map z_pushed cs ++ copies left cs rs ++ stored p)
        (recv (flat_map z_batches rs) ++ flat_map z_singles rs ++ flat_map z_lost rs ++ stored p').
    Proof.
      intros o h Ho. induction cs as [|c cs IH]; intros p rs p' I Hw H; cbn [pk_run_f] in H.
      - injection H as <- <-. split; [constructor|reflexivity].
      - destruct (pk_do_f esc left c p) as [[r p1]|] eqn:E; [|discriminate].
        destruct (pk_run_f esc left p1 cs) as [[rs' p2]|] eqn:F; [|discriminate]. injection H as <- <-.
        cbn [flat_map copies] in *. rewrite !names_weight_app in Hw.
        pose proof (names_weight_nonneg (flat_map z_pushed cs)) as N1. pose proof (names_weight_nonneg (copies left cs rs')) as N2.
        pose proof (names_weight_nonneg (z_copies left c r)) as N3.
        destruct (do_f_s o h Ho c p r p1 I) as (G1 & P1); [rewrite names_weight_app; lia|exact E|].
        destruct (do_f_t o h Ho c p I) as (r' & p1' & E' & I1 & _). rewrite E in E'. injection E' as <- <-.
        pose proof (names_weight_perm _ _ P1) as WP. rewrite !names_weight_app in WP.
        pose proof (names_weight_nonneg (recv (z_batches r))). pose proof (names_weight_nonneg (z_singles r)). pose proof (names_weight_nonneg (z_lost r)).
        destruct (IH p1 rs' p2 I1) as (G2 & P2); [rewrite !names_weight_app; lia|exact F|].
        split; [apply Forall_app; auto|]. unfold PackThrowProofs.recv in *. rewrite !flat_map_app.
        assert (M1 : Permutation ((z_pushed c ++ flat_map z_pushed cs) ++ (z_copies left c r ++ copies left cs rs') ++ stored p)
          ((flat_map z_pushed cs ++ copies left cs rs') ++ (z_pushed c ++ z_copies left c r ++ stored p))).
        { rewrite <- !app_assoc. rewrite (Permutation_app_swap_app (z_pushed c)). apply Permutation_app_head.
          rewrite (Permutation_app_swap_app (z_copies left c r)). rewrite (Permutation_app_swap_app (z_pushed c)). reflexivity. }
        rewrite M1, P1.
        assert (M2 : Permutation ((flat_map z_pushed cs ++ copies left cs rs') ++ flat_map (received jp) (z_batches r) ++ z_singles r ++ z_lost r ++ stored p1)
          ((flat_map (received jp) (z_batches r) ++ z_singles r ++ z_lost r) ++ (flat_map z_pushed cs ++ copies left cs rs' ++ stored p1))).
        { rewrite <- !app_assoc. rewrite (Permutation_app_swap_app (copies left cs rs')). rewrite (Permutation_app_swap_app (flat_map z_pushed cs)).
          apply Permutation_app_head. rewrite (Permutation_app_swap_app (copies left cs rs')). rewrite (Permutation_app_swap_app (flat_map z_pushed cs)).
          apply Permutation_app_head. rewrite (Permutation_app_swap_app (copies left cs rs')). rewrite (Permutation_app_swap_app (flat_map z_pushed cs)).
          reflexivity. }
        rewrite M2, P2. rewrite <- !app_assoc. apply Permutation_app_head.
        rewrite (app_assoc (z_singles r) (z_lost r)), (Permutation_app_swap_app (z_singles r ++ z_lost r)). apply Permutation_app_head.
        rewrite <- app_assoc. apply Permutation_app_head. rewrite (Permutation_app_swap_app (z_lost r)). reflexivity.
    Qed.
  End Parser.
End Esc.
