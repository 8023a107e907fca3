(** What a multi_aggregator makes of records that arrive in order. *)
From Coq Require Import ZArith List Bool Permutation Lia Arith Ascii.
From Verif Require Import Base ModelTypes ModelReducer SpecReducer ReducerProofs PubProofs ModelSeparator SpecSeparator SepProofs SepSpecProofs SepRun
  ModelAggregator SpecAggregator AggProofs AggRun AggFinal ModelRegistry SpecRegistry RegProofs ModelMulti SpecMulti MultiProofs MultiRun SpecSystem SystemProofs SpecRelay.
Import ListNotations.
Local Open Scope Z_scope.

Section Relay.
  Variable ne : nat -> list Z -> list Z.
  Hypothesis Hne : nth_element_ok ne.
  Variable ao : aopts.
  Let step := so_step (ao_sep ao).
  Hypothesis Hs : 0 < step.
  Notation wr := (wrel ne (so_red (ao_sep ao))).
  Notation cinv := (cell_inv ne ao true true).

  Lemma wr_no_perc groups G : Forall2 wr groups G -> Forall2 wr groups (map no_perc G).
  Proof. induction 1 as [|q d gs G (a & A & B & C) F IH]; simpl; constructor; auto. exists a. auto. Qed.
  Lemma cinv_no_perc c S G l T : cinv c S (G ++ l) T -> cinv c S (G ++ map no_perc l) T.
  Proof.
    intros (groups & lost & held & F & H). exists groups, lost, held. split; auto. apply Forall2_app_inv_r in F as (g1 & g2 & F1 & F2 & ->).
    apply Forall2_app; auto using wr_no_perc.
  Qed.
  Lemma cinv_step c S G T : cinv c S G T -> step <= T.
  Proof. intros (groups & lost & held & _ & _ & _ & H). now apply H. Qed.
  Lemma given_ts res c ts : 0 < ts -> given_time res c ts = ts.
  Proof. intros H. unfold given_time. destruct (Z.eqb_spec ts 0); [lia|]. reflexivity. Qed.

  Lemma kpush_inv e d c b l g S G T : cinv c S G T -> kpush ne ao e d c = Ok (b, l, g) -> fed_typed d -> T <= fed_time d ->
    cinv (Some g) (S ++ [OpAddRed d]) (G ++ l) (fed_time d).
  Proof.
    intros C E TY HT. pose proof (cinv_step _ _ _ _ C) as HS. unfold kpush in E.
    assert (GT : forall r k, given_time r k (ri_ts (rd_info d)) = fed_time d) by (intros; unfold fed_time in *; apply given_ts; lia).
    assert (X : exists g0 T0, match c with Some g => Ok g | None => agg_new ao (pe_clock e) (pe_rnd e) (ri_ts (rd_info d)) end = Ok g0 /\
      cinv (Some g0) S G T0 /\ T0 <= fed_time d).
    { destruct c as [g0|]; [exists g0, T; auto|]. destruct (agg_new _ _ _ _) as [g0| |] eqn:EN; cbn [bind] in E; try discriminate.
      exists g0, (fed_time d). split; auto. split; [|lia].
      destruct (new_cell ne ao Hs true true _ _ _ g0 S G T EN C) as [A _]; [intros _; rewrite GT; simpl; lia|]. rewrite GT in A. exact A. }
    destruct X as (g0 & T0 & E0 & C0 & H0). rewrite E0 in E. cbn [bind] in E.
    destruct (g_call ne (GoPush (SmRed d) true (pe_c1 e) (pe_c2 e)) g0) as [[r g1]| |] eqn:EC; cbn [bind] in E; try discriminate. injection E as <- <- <-.
    apply cinv_no_perc.
    assert (OK := call_cell ne Hne ao Hs true true (GoPush (SmRed d) true (pe_c1 e) (pe_c2 e)) g0 S G T0 r g1 C0 (conj TY I) I EC).
    simpl op_times in OK. simpl op_sent in OK. simpl op_got in OK. rewrite GT in OK. apply OK; [|auto]. intros _. split; [exact I|]. simpl. lia.
  Qed.
  Lemma kpushes_inv ps : forall c l c1 S G T, cinv c S G T -> kpushes ne ao ps c = Ok (l, c1) -> Forall fed_typed (map snd ps) ->
    forward T (map fed_time (map snd ps)) -> cinv c1 (S ++ map OpAddRed (map snd ps)) (G ++ l) (last (map fed_time (map snd ps)) T).
  Proof.
    induction ps as [|[e d] ps IH]; intros c l c1 S G T C E TY FW; cbn [kpushes] in E.
    - injection E as <- <-. simpl. rewrite !app_nil_r. exact C.
    - destruct (kpush ne ao e d c) as [[[b l1] g]| |] eqn:EK; cbn [bind] in E; try discriminate.
      destruct (kpushes ne ao ps (Some g)) as [[l2 c2]| |] eqn:EP; cbn [bind] in E; try discriminate. injection E as <- <-.
      simpl in TY, FW. inversion TY; subst. destruct FW as [F1 F2]. pose proof (kpush_inv _ _ _ _ _ _ _ _ _ C EK H1 F1) as C1.
      pose proof (IH _ _ _ _ _ _ C1 EP H2 F2) as C2. cbn [map snd]. rewrite last_cons.
      change (OpAddRed d :: map OpAddRed (map snd ps)) with ([OpAddRed d] ++ map OpAddRed (map snd ps)). rewrite !app_assoc. exact C2.
  Qed.
  Lemma pop_inv f g r g1 S G T : cinv (Some g) S G T -> g_call ne (pop_call f) g = Ok (r, g1) ->
    cinv (Some g1) S (G ++ match out_ptr r with Some a => [a] | None => [] end) T.
  Proof.
    intros C E. assert (OK := call_cell ne Hne ao Hs true true (pop_call f) g S G T r g1 C).
    destruct f; simpl in OK; rewrite app_nil_r in OK; apply OK; auto.
  Qed.
  Lemma fed_multi n (ps : list (penv * (name * rdata))) : map snd (of_name n (map (fun p => (fst (snd p), (fst p, snd (snd p)))) ps)) = of_name n (map snd ps).
  Proof. unfold of_name. induction ps as [|[e [m d]] ps IH]; [reflexivity|]. cbn [map filter fst snd]. destruct (name_eqb n m); cbn [map snd]; now rewrite IH. Qed.
  Lemma op_inv n op f out f1 S G T : cinv (f n) S G T -> single ne ao op f out f1 -> op <> MDel n -> Forall fed_typed (fed1 n op) ->
    forward T (map fed_time (fed1 n op)) -> cinv (f1 n) (S ++ map OpAddRed (fed1 n op)) (G ++ of_name n (mrecs out)) (last (map fed_time (fed1 n op)) T).
  Proof.
    intros C SI ND TY FW. pose proof (single_cell ne ao op f out f1 n SI) as K. destruct op as [e m d h|ps h|m|fo h ord|]; cbn [kcall fed1] in *.
    - destruct (name_eqb n m).
      + destruct out; try contradiction. cbn [kview kdo] in K. destruct (kpush ne ao e d (f n)) as [[[b1 l1] g]| |] eqn:EK; cbn [bind] in K; try discriminate.
        injection K as -> -> K. rewrite <- K. simpl in TY, FW |- *. inversion TY; subst. eapply kpush_inv; eauto. tauto.
      + destruct K as [-> ->]. simpl. rewrite !app_nil_r. exact C.
    - destruct out; try contradiction. cbn [kview kdo] in K. rewrite <- fed_multi in *. destruct (kpushes ne ao _ (f n)) as [[l1 c1]| |] eqn:EK; cbn [bind] in K; try discriminate.
      injection K as -> K. rewrite <- K. eapply kpushes_inv; eauto.
    - destruct (name_eqb_spec n m) as [->|NE]; [congruence|]. destruct K as [-> ->]. simpl. rewrite !app_nil_r. exact C.
    - destruct out; try contradiction. cbn [kview kdo] in K. simpl. rewrite app_nil_r. destruct (f n) as [g|].
      + destruct (g_call ne (pop_call fo) g) as [[r g1]| |] eqn:EC; cbn [bind] in K; try discriminate. injection K as K1 K2. rewrite <- K1, <- K2. eapply pop_inv; eauto.
      + injection K as K1 K2. rewrite <- K1, <- K2, app_nil_r. exact C.
    - destruct K as [-> ->]. simpl. rewrite !app_nil_r. exact C.
  Qed.
  Lemma run_cinv n f ops outs f1 : single_run ne ao f ops outs f1 -> forall S G T, cinv (f n) S G T -> ~ In (MDel n) ops -> Forall fed_typed (fed n ops) ->
    forward T (map fed_time (fed n ops)) ->
    cinv (f1 n) (S ++ map OpAddRed (fed n ops)) (G ++ of_name n (flat_map mrecs outs)) (last (map fed_time (fed n ops)) T).
  Proof.
    induction 1 as [f f' E|op t f out f1 outs f2 SI R IH]; intros S G T C ND TY FW.
    - rewrite E. simpl. rewrite !app_nil_r. exact C.
    - unfold fed in *. cbn [flat_map] in *. rewrite map_app in *. apply Forall_app in TY as [T1 T2]. apply forward_app in FW as [F1 F2].
      assert (C1 : cinv (f1 n) (S ++ map OpAddRed (fed1 n op)) (G ++ of_name n (mrecs out)) (last (map fed_time (fed1 n op)) T)).
      { apply (op_inv n op f); auto. intros ->. apply ND. now left. }
      assert (C2 := IH _ _ _ C1 (fun H => ND (or_intror H)) T2 F2). rewrite map_app, of_name_app, !app_assoc, SystemProofs.last_app. exact C2.
  Qed.

  (** After force_pushout nothing is left. *)
  Lemma flushed g S G T r g1 : cinv (Some g) S G T -> g_call ne GoForcePop g = Ok (r, g1) ->
    exists groups, Forall2 wr groups (G ++ match out_ptr r with Some a => [a] | None => [] end) /\ Permutation (all_ops groups) S.
  Proof.
    intros (groups & lost & held & FA & HC & P & HL) EF. destruct (HL eq_refl) as [-> _]. rewrite app_nil_r in P. destruct HC as (a & AL & -> & HQ). destruct (HQ eq_refl) as [Q1 Q2].
    destruct (call_core ne Hne ao Hs true GoForcePop g a T r g1 AL I I EF) as (a1 & gr & miss & EA & _ & F1 & P1 & M1); [split; exact I|].
    rewrite (M1 eq_refl) in P1. simpl in P1. rewrite !app_nil_r in P1. simpl in EA. unfold aheld in *. rewrite Q1, Q2 in *. subst a1. simpl in P1.
    rewrite Q1, app_nil_r in P1. simpl in P1. simpl op_got in F1. exists (groups ++ gr). split; [apply Forall2_app; auto|].
    rewrite all_ops_app, <- P. apply Permutation_app_head. rewrite <- P1. reflexivity.
  Qed.
  Lemma single_run_snoc f ops op outs f1 : single_run ne ao f (ops ++ [op]) outs f1 ->
    exists outs1 out f2 f3, single_run ne ao f ops outs1 f2 /\ single ne ao op f2 out f3 /\ outs = outs1 ++ [out] /\ forall n, f1 n = f3 n.
  Proof.
    revert f outs. induction ops as [|x ops IH]; intros f outs R; cbn [app] in R; inversion R as [|? ? ? out f2 outs2 ? SI RR]; subst.
    - inversion RR; subst. exists [], out, f, f2. split; [constructor; auto|]. auto.
    - apply IH in RR as (outs1 & out1 & f3 & f4 & A & B & -> & D). exists (out :: outs1), out1, f3, f4. split; [econstructor; eauto|]. auto.
  Qed.
  Lemma relay n ops outs f h ord : single_run ne ao (fun _ => None) (ops ++ [MPushout true h ord]) outs f ->
    ~ In (MDel n) ops -> Forall fed_typed (fed n ops) -> forward step (map fed_time (fed n ops)) ->
    exists groups, Forall2 wr groups (of_name n (flat_map mrecs outs)) /\ Permutation (all_ops groups) (map OpAddRed (fed n ops)).
  Proof.
    intros R ND TY FW. apply single_run_snoc in R as (outs1 & out & f2 & f3 & R & SI & -> & _).
    assert (C0 : cinv None [] [] step). { exists [], [], []. split; auto. split; auto. split; auto. intros _. split; [auto|lia]. }
    pose proof (run_cinv n _ _ _ _ R [] [] step C0 ND TY FW) as C. cbn [app] in C.
    pose proof (single_cell ne ao _ _ _ _ n SI) as K. cbn [kcall kdo] in K. destruct out; try contradiction. cbn [kview] in K.
    rewrite flat_map_app, of_name_app. cbn [flat_map mrecs]. rewrite app_nil_r. destruct (f2 n) as [g|].
    - change (pop_call true) with GoForcePop in K. destruct (g_call ne GoForcePop g) as [[r g1]| |] eqn:EC; cbn [bind] in K; try discriminate. injection K as K _. rewrite <- K.
      eapply flushed; eauto.
    - injection K as K _. rewrite <- K, app_nil_r. destruct C as (groups & lost & held & FA & -> & P & HL). destruct (HL eq_refl) as [-> _]. rewrite !app_nil_r in P. eauto.
  Qed.
End Relay.

(** ** Extremes *)
Notation least := (fold_right Z.min i64_max).
Notation most := (fold_right Z.max i64_min).
Lemma least_le l : least l <= i64_max.
Proof. induction l; simpl; lia. Qed.
Lemma most_ge l : i64_min <= most l.
Proof. induction l; simpl; lia. Qed.
Lemma least_app a b : least (a ++ b) = Z.min (least a) (least b).
Proof. induction a as [|x a IH]; simpl; [pose proof (least_le b); lia|]. rewrite IH. lia. Qed.
Lemma most_app a b : most (a ++ b) = Z.max (most a) (most b).
Proof. induction a as [|x a IH]; simpl; [pose proof (most_ge b); lia|]. rewrite IH. lia. Qed.
Lemma least_i64 l : Forall i64 l -> i64 (least l).
Proof. unfold i64. induction 1 as [|x l H F IH]; simpl; [unfold i64_min, i64_max; lia|lia]. Qed.
Lemma most_i64 l : Forall i64 l -> i64 (most l).
Proof. unfold i64. induction 1 as [|x l H F IH]; simpl; [unfold i64_min, i64_max; lia|lia]. Qed.
Lemma least_perm a b : Permutation a b -> least a = least b.
Proof. induction 1; simpl; lia. Qed.
Lemma most_perm a b : Permutation a b -> most a = most b.
Proof. induction 1; simpl; lia. Qed.
Lemma extremes_perm v w : Permutation v w -> Permutation (extremes v) (extremes w).
Proof. intros P. unfold extremes. now apply Permutation_flat_map. Qed.
Lemma extremes_app v w : extremes (v ++ w) = extremes v ++ extremes w.
Proof. unfold extremes. apply flat_map_app. Qed.
Lemma values_red l : values (map OpAddRed l) = flat_map rd_data l.
Proof. unfold values. induction l as [|d l IH]; simpl; auto. now rewrite IH. Qed.
Lemma declared_red l : declared (map OpAddRed l) = fold_right Z.add 0 (map (fun d => ri_count (rd_info d)) l).
Proof. unfold declared. now rewrite map_map. Qed.

Lemma plain_least d : plain_extremes d -> fed_typed d -> least (op_extremes (OpAddRed d)) = ri_min (rd_info d) /\ most (op_extremes (OpAddRed d)) = ri_max (rd_info d).
Proof.
  intros (A & B & C & D) [T _]. unfold op_extremes in *. cbn [op_values filter] in *.
  destruct (Z.eqb_spec (ri_min (rd_info d)) 0); [contradiction|]. destruct (Z.eqb_spec (ri_max (rd_info d)) 0); [contradiction|]. cbn [negb] in *.
  apply Forall_app in T as [_ T]. inversion T as [|? ? T1 T2]; subst. inversion T2 as [|? ? T3 _]; subst. rewrite least_app, most_app. cbn [fold_right].
  assert (L : ri_min (rd_info d) <= least (rd_data d)) by (clear - D T1; induction D; simpl; unfold i64 in *; lia).
  assert (M : most (rd_data d) <= ri_max (rd_info d)) by (clear - D T3; induction D; simpl; unfold i64 in *; lia). unfold i64 in *. lia.
Qed.
Lemma fed_least l : Forall plain_extremes l -> Forall fed_typed l ->
  least (extremes (map OpAddRed l)) = least (map (fun d => ri_min (rd_info d)) l) /\ most (extremes (map OpAddRed l)) = most (map (fun d => ri_max (rd_info d)) l).
Proof.
  induction 1 as [|d l H F IH]; intros T; [split; reflexivity|]. inversion T; subst. destruct (IH H3) as [I1 I2]. destruct (plain_least d H H2) as [P1 P2].
  change (extremes (map OpAddRed (d :: l))) with (op_extremes (OpAddRed d) ++ extremes (map OpAddRed l)). rewrite least_app, most_app, P1, P2, I1, I2.
  split; reflexivity.
Qed.
Section Ext.
  Variable ne : nat -> list Z -> list Z.
  Hypothesis Hne : nth_element_ok ne.
  Lemma wrel_least o q d : wrel ne o q d ->
    ad_min d = least (extremes (snd q)) /\ ad_max d = most (extremes (snd q)) /\ Forall i64 (extremes (snd q)).
  Proof.
    intros (a & (ops & a0 & HT & [HW _] & HP & ->) & E & _). destruct (pub_inv ne Hne _ _ _ HT HP) as [PU _].
    destruct PU as (_ & QP & QC & _ & QL & QMn & QMx & _). rewrite <- HW. unfold ad_min, ad_max. rewrite E. cbn. split; [exact QMn|]. split; [exact QMx|].
    apply typed_extremes, window_typed, HT.
  Qed.
  Lemma groups_least o groups l : Forall2 (wrel ne o) groups l ->
    least (map ad_min l) = least (extremes (all_ops groups)) /\ most (map ad_max l) = most (extremes (all_ops groups)) /\
    Forall i64 (map ad_min l) /\ Forall i64 (map ad_max l).
  Proof.
    induction 1 as [|q d groups l H F (I1 & I2 & I3 & I4)]; [repeat split; constructor|]. destruct (wrel_least _ _ _ H) as (A & B & C).
    unfold all_ops in *. cbn [flat_map map fold_right]. rewrite extremes_app, least_app, most_app, <- A, <- B, I1, I2. split; [reflexivity|]. split; [reflexivity|].
    split; constructor; auto; [rewrite A; now apply least_i64|rewrite B; now apply most_i64].
  Qed.
End Ext.
