(** A program with wrtstat, one name at a time. *)
From Coq Require Import ZArith List Bool Permutation Sorted Lia Arith Ascii.
From Verif Require Import Base ModelTypes ModelAvg ModelReducer SpecReducer ModelSeparator SpecSeparator ModelAggregator SpecAggregator
  SepProofs SepSpecProofs SepRun AggProofs AggRun AggFinal ModelRegistry SpecRegistry RegProofs RegFinal
  ModelComposite ModelMeters ModelSystem SpecSystem.
Import ListNotations.
Local Open Scope Z_scope.

Lemma trunc_mono step a b : 0 < step -> a <= b -> truncated step a <= truncated step b.
Proof. intros Hs H. unfold truncated. pose proof (Z.quot_le_mono a b step Hs H). nia. Qed.
Lemma trunc_pos step a : 0 < step -> step <= a -> step <= truncated step a.
Proof. intros Hs H. rewrite <- (Z.mul_1_l step) at 1. unfold truncated. apply Z.mul_le_mono_nonneg_r; [lia|]. apply Z.quot_le_lower_bound; lia. Qed.
Lemma last_cons {A} (x : A) l y : last (x :: l) y = last l x.
Proof. revert x y. induction l as [|z l IH]; intros x y; auto. change (last (z :: l) y = last (z :: l) x). now rewrite !IH. Qed.
Lemma last_app {A} (l1 l2 : list A) t : last (l1 ++ l2) t = last l2 (last l1 t).
Proof. revert t. induction l1 as [|x l1 IH]; intros t; auto. cbn [app]. rewrite !last_cons. apply IH. Qed.
Lemma forward_app t l1 l2 : forward t (l1 ++ l2) <-> forward t l1 /\ forward (last l1 t) l2.
Proof. revert t. induction l1 as [|x l1 IH]; intros t; [simpl; tauto|]. cbn [app forward]. rewrite IH, last_cons. tauto. Qed.
Lemma last_forward t l : forward t l -> t <= last l t.
Proof. revert t. induction l as [|x l IH]; intros t H; [simpl; lia|]. destruct H as [H1 H2]. specialize (IH x H2). rewrite last_cons. lia. Qed.

Section Cell.
  Variable ne : nat -> list Z -> list Z.
  Hypothesis Hne : nth_element_ok ne.
  Variable ao : aopts.
  Let step := so_step (ao_sep ao).
  Let res := so_res (ao_sep ao).
  Hypothesis Hs : 0 < step.
  (** [st]: nothing was lost so far; [mo]: nothing is queued *)
  Variables st mo : bool.

  Definition alive0 (g : agg) (a : aspec) (T : Z) : Prop :=
    ASim ne (so_red (ao_sep ao)) (ao_out ao) step res g a /\ g_id g = true /\
      (st = true -> as_en a = true /\ step <= T /\ sp_cur (as_sp a) <= truncated step T).
  Definition quiet (a : aspec) : Prop := as_q a = [] /\ sp_queue (as_sp a) = [].
  Definition alive_inv (g : agg) (held : list rop) (T : Z) : Prop :=
    exists a, alive0 g a T /\ held = aheld a /\ (mo = true -> quiet a).
  Definition cell_inv (c : option agg) (S : list rop) (G : list adata) (T : Z) : Prop :=
    exists groups lost held, Forall2 (wrel ne (so_red (ao_sep ao))) groups G /\
      match c with Some g => alive_inv g held T | None => held = [] end /\
      Permutation (all_ops groups ++ held ++ lost) S /\ (st = true -> lost = [] /\ step <= T).

  Definition op_sent (op : gop) : list rop := match op with GoAdd x _ _ | GoPush x _ _ _ => [sm_op x] | _ => [] end.
  Definition op_got (op : gop) (r : sout) : list adata :=
    match op with
    | GoPush _ _ _ _ => out_handler r
    | GoPop | GoForcePop => match out_ptr r with Some a => [a] | None => [] end
    | _ => []
    end.
  Definition op_times (op : gop) : list Z :=
    match op with
    | GoAdd x c1 _ | GoPush x _ c1 _ => [given_time res c1 (sm_ts x)]
    | GoSeparate _ _ _ c => if res_none res then [] else [c]
    | _ => []
    end.
  Definition op_kept (op : gop) : Prop := match op with GoEnable v => v = true | _ => True end.
  Definition op_allowed (op : gop) : Prop :=
    match op with
    | GoClear _ _ | GoCurrent => False
    | GoSeparate ts h _ _ => ts = 0 /\ h = false
    | _ => True
    end.

  Lemma advance_cur t h sp : let '(out, sp1) := spec_deliver h (spec_advance step t sp) in
    sp_cur sp1 <= Z.max (sp_cur sp) t /\ (h = true -> sp_queue sp1 = sp_queue sp).
  Proof.
    unfold spec_advance, spec_deliver. destruct (Z.ltb_spec t (sp_cur sp + step)).
    - destruct h; simpl; split; auto; solve [lia|discriminate].
    - pose proof (window_of_le (sp_cur sp) step t Hs ltac:(lia)). destruct h; simpl; split; auto; solve [lia|discriminate].
  Qed.

  (** A sample whose time is not before those seen is recorded. *)
  Lemma put_ok T x c1 c2 h sp so sp1 : step <= T -> sp_cur sp <= truncated step T -> T <= given_time res c1 (sm_ts x) ->
    spec_put step (adv_time step res c1 c2 (sm_ts x)) (acc_time step res c1 (sm_ts x)) h (sm_op x) sp = (so, sp1) ->
    po_bool so = Some true /\ sp_cur sp1 <= truncated step (given_time res c1 (sm_ts x)) /\ (h = true -> sp_queue sp1 = sp_queue sp).
  Proof.
    intros H1 H2 H3 E. set (t := given_time res c1 (sm_ts x)) in *.
    assert (AC : acc_time step res c1 (sm_ts x) = truncated step t) by reflexivity.
    assert (TP := trunc_pos step t Hs ltac:(lia)).
    assert (AD : adv_time step res c1 c2 (sm_ts x) = truncated step t).
    { unfold adv_time. rewrite AC. unfold given_time at 1. destruct (Z.eqb_spec (truncated step t) 0); [lia|]. simpl. apply trunc_idem. lia. }
    rewrite AC, AD in E. unfold spec_put in E. pose proof (advance_cur (truncated step t) h sp) as A.
    destruct (spec_deliver h (spec_advance step (truncated step t) sp)) as [out sp2]. destruct A as [A1 A2].
    pose proof (trunc_mono step T t Hs H3).
    destruct (Z.ltb_spec (truncated step t) (sp_cur sp2)); [lia|]. injection E as <- <-. simpl. repeat split; auto; lia.
  Qed.

  Lemma perm_lost (a b c d : list rop) : Permutation (a ++ (b ++ c) ++ d) (a ++ b ++ d ++ c).
  Proof. apply Permutation_app_head. rewrite <- app_assoc. apply Permutation_app_head. apply Permutation_app_comm. Qed.

  Lemma gone_inv g S G T x : cell_inv g S G T -> st = false -> cell_inv g (S ++ x) G T.
  Proof.
    intros (groups & lost & held & F & HC & P & _) N. exists groups, (lost ++ x), held. split; auto. split; auto. split; [|congruence].
    rewrite <- P. rewrite <- !app_assoc. reflexivity.
  Qed.
  Lemma kill_inv g S G T : cell_inv g S G T -> st = false -> cell_inv None S G T.
  Proof.
    intros (groups & lost & held & F & HC & P & _) N. exists groups, (held ++ lost), []. split; auto. split; auto. split; [exact P|congruence].
  Qed.

  Lemma call_core op g a T r g' : alive0 g a T -> gop_typed op -> op_allowed op -> g_call ne op g = Ok (r, g') ->
    (st = true -> op_kept op /\ forward T (op_times op)) ->
    exists a1 groups miss, snd (aspec_call step res op a) = a1 /\ alive0 g' a1 (last (op_times op) T) /\
      Forall2 (wrel ne (so_red (ao_sep ao))) groups (op_got op r) /\
      Permutation (all_ops groups ++ aheld a1 ++ miss) (aheld a ++ op_sent op) /\ (st = true -> miss = []).
  Proof.
    intros (AS & ID & HA) HT HO E HK.
    pose proof (gcall_sim ne Hne _ _ step res g a op r g' Hs AS HT E) as SIM.
    destruct (aspec_call step res op a) as [so a1] eqn:EC. destruct SIM as ((B1 & B2 & B3) & AS1).
    assert (NC : gnot_clear op) by (destruct op; simpl in *; tauto).
    pose proof (acons_call step res op a so a1 NC EC) as CONS. pose proof (as_en_call step res op a so a1 EC) as EN.
    pose proof (id_call ne op g r g' E) as ID1.
    assert (ID2 : g_id g' = true) by (rewrite ID1; destruct op; simpl in *; auto; contradiction). clear ID1.
    assert (ADDH : forall x c1 c2, aspec_add step res x c1 c2 a = (so, a1) -> po_handler so = []).
    { intros x c1 c2 EA. unfold aspec_add in EA. destruct (negb (as_en a)); [injection EA as <- _; auto|].
      cbn [spec_call] in EA. unfold spec_put, spec_deliver in EA. destruct (_ <? _); injection EA as <- _; auto. }
    assert (ADDT : forall x c1 c2, aspec_add step res x c1 c2 a = (so, a1) -> as_en a = true -> step <= T ->
      sp_cur (as_sp a) <= truncated step T -> T <= given_time res c1 (sm_ts x) ->
      po_bool so = Some true /\ sp_cur (as_sp a1) <= truncated step (given_time res c1 (sm_ts x))).
    { intros x c1 c2 EA A1 A2 A3 A4. unfold aspec_add in EA. rewrite A1 in EA. simpl negb in EA. cbv iota in EA. cbn [spec_call] in EA.
      destruct (spec_put _ _ _ _ _ _) as [so0 sp1] eqn:EP. destruct (put_ok T x c1 c2 false _ _ _ A2 A3 A4 EP) as (C1 & C2 & _).
      injection EA as -> <-. rewrite C1. split; auto. }
    set (acc := map snd _) in CONS.
    exists a1. exists (po_handler so ++ match op, po_ptr so with GoPop, Some q | GoForcePop, Some q => [q] | _, _ => [] end).
    assert (NG : Forall2 (wrel ne (so_red (ao_sep ao)))
       (po_handler so ++ match op, po_ptr so with GoPop, Some q | GoForcePop, Some q => [q] | _, _ => [] end) (op_got op r)).
    { assert (W : Forall2 (wrel ne (so_red (ao_sep ao))) (po_handler so) (out_handler r)).
      { destruct op; (eapply Forall2_impl; [|exact B2]); intros; first [eapply rel_w; eassumption|eapply drel_w; eassumption]. }
      destruct op; simpl in HO; try contradiction; simpl op_got; cbn [app]; rewrite ?app_nil_r; auto.
      - simpl in EC. rewrite (ADDH _ _ _ EC). constructor.
      - destruct HO as [-> ->]. simpl in EC. unfold spec_deliver in EC. cbn [fst snd] in EC. injection EC as <- _. constructor.
      - simpl in EC. destruct (as_q a); injection EC as <- _; simpl in *; destruct (out_ptr r); try contradiction; constructor; auto.
        eapply drel_w; eassumption.
      - simpl in EC. assert (HN : po_handler so = []) by (destruct (sp_queue (as_sp a)); injection EC as <- _; auto). rewrite HN.
        destruct (po_ptr so) eqn:EP, (out_ptr r); try contradiction; repeat constructor. eapply drel_w; eassumption.
      - simpl in EC. injection EC as <- _. constructor. }
    assert (ACC : exists miss, Permutation (acc ++ miss) (op_sent op) /\ (st = true -> miss = [])).
    { unfold acc. destruct op; cbn [op_sent]; try (exists []; split; [reflexivity|auto]).
      - destruct st eqn:EST.
        + destruct (HA eq_refl) as (A1 & A2 & A3). destruct (HK eq_refl) as (_ & A4 & _). simpl in EC.
          destruct (ADDT _ _ _ EC A1 A2 A3 A4) as (C1 & _). rewrite C1, A1. exists []. split; auto.
        + destruct (po_bool so) as [[|]|]; [destruct (as_en a)|..]; simpl; first [exists []; split; [reflexivity|auto]|eexists; split; [reflexivity|congruence]].
      - destruct st eqn:EST.
        + destruct (HA eq_refl) as (A1 & A2 & A3). destruct (HK eq_refl) as (_ & A4 & _). simpl in EC.
          assert (C1 : po_bool so = Some true).
          { destruct h; simpl negb in EC; cbv iota in EC; [|eapply ADDT; eassumption]. rewrite A1 in EC. simpl negb in EC. cbv iota in EC.
            destruct (spec_put _ _ _ _ _ _) as [so0 sp1] eqn:EP. destruct (put_ok T x c1 c2 true _ _ _ A2 A3 A4 EP) as (C1 & C2 & _).
            now injection EC as <- _. }
          rewrite C1, A1. exists []. split; auto.
        + destruct (po_bool so) as [[|]|]; [destruct (as_en a)|..]; simpl; first [exists []; split; [reflexivity|auto]|eexists; split; [reflexivity|congruence]]. }
    destruct ACC as (miss & PM & HM). exists miss. split; auto. split; [|split; [exact NG|split; [|exact HM]]].
    - split; auto. split; auto. intros HST. destruct (HA HST) as (A1 & A2 & A3). destruct (HK HST) as (K1 & K2).
      split; [rewrite EN; destruct op; auto|]. split; [pose proof (last_forward _ _ K2); lia|].
      destruct op; simpl in HO; try contradiction; simpl op_times; simpl in EC.
      + destruct K2 as [K2 _]. destruct (ADDT _ _ _ EC A1 A2 A3 K2) as (_ & C2). exact C2.
      + destruct K2 as [K2 _]. destruct h; simpl negb in EC; cbv iota in EC; [|destruct (ADDT _ _ _ EC A1 A2 A3 K2) as (_ & C2); exact C2].
        rewrite A1 in EC. simpl negb in EC. cbv iota in EC.
        destruct (spec_put _ _ _ _ _ _) as [so0 sp1] eqn:EP. destruct (put_ok T x c1 c2 true _ _ _ A2 A3 K2 EP) as (C1 & C2 & _).
        injection EC as _ <-. exact C2.
      + destruct HO as [-> ->]. pose proof (advance_cur (acc_time step res c 0) false (as_sp a)) as AC.
        destruct (spec_deliver _ _) as [out sp1]. injection EC as _ <-. destruct AC as [AC _]. simpl.
        unfold acc_time, given_time in AC. simpl in AC, K2. destruct (res_none res); simpl in *.
        * assert (Z0 : truncated step 0 = 0) by (unfold truncated; now rewrite Z.quot_0_l by lia). rewrite Z0 in AC.
          pose proof (trunc_pos step T Hs A2). lia.
        * destruct K2 as [K2 _]. pose proof (trunc_mono step T c Hs K2). lia.
      + destruct (as_q a); injection EC as _ <-; auto.
      + destruct (sp_queue _); injection EC as _ <-; auto.
      + injection EC as _ <-; auto.
    - transitivity ((aheld a ++ acc) ++ miss); [|now rewrite <- app_assoc, PM]. rewrite <- CONS, all_ops_app, <- !app_assoc. reflexivity.
  Qed.

  Lemma call_cell op g S G T r g' : cell_inv (Some g) S G T -> gop_typed op -> op_allowed op -> g_call ne op g = Ok (r, g') ->
    (st = true -> op_kept op /\ forward T (op_times op)) ->
    (mo = true -> match op with GoPush _ h _ _ => h = true | GoPop | GoForcePop | GoEnable _ => True | _ => False end) ->
    cell_inv (Some g') (S ++ op_sent op) (G ++ op_got op r) (last (op_times op) T).
  Proof.
    intros (groups & lost & held & F & (a & AS & -> & HA) & P & HL) HT HO E HK HM.
    destruct (call_core op g a T r g' AS HT HO E HK) as (a1 & gr & miss & EA & AS1 & F1 & P1 & M1).
    exists (groups ++ gr), (lost ++ miss), (aheld a1). split; [apply Forall2_app; auto|]. split; [|split].
    - exists a1. split; auto. split; auto. intros HMO. specialize (HM HMO). destruct (HA HMO) as [Q1 Q2]. subst a1. unfold quiet.
      destruct op; try contradiction; simpl.
      + subst h. simpl. destruct (negb (as_en a)); [simpl; auto|]. unfold spec_put, spec_deliver, spec_advance. simpl.
        destruct (_ <? sp_cur (as_sp a) + step); simpl; destruct (_ <? _); simpl; auto.
      + rewrite Q1. simpl. auto.
      + rewrite Q2. simpl. auto.
      + auto.
    - rewrite <- P. rewrite all_ops_app.
      transitivity (all_ops groups ++ (all_ops gr ++ aheld a1 ++ miss) ++ lost).
      + rewrite <- !app_assoc. do 3 apply Permutation_app_head. apply Permutation_app_comm.
      + rewrite P1. rewrite <- !app_assoc. do 2 apply Permutation_app_head. apply Permutation_app_comm.
    - intros HST. destruct (HL HST) as [-> L]. rewrite (M1 HST). split; auto. destruct (HK HST) as [_ K]. apply last_forward in K. lia.
  Qed.

  (** separate() followed by pop() or force_pop(), as pop_all and force_pop_all do *)
  Lemma popped_cell f c g S G T d g' : cell_inv (Some g) S G T -> popped_one ne f c g = Ok (d, g') ->
    (st = true -> forward T (if res_none res then [] else [c])) -> (mo = true -> f = false) ->
    cell_inv (Some g') S (G ++ match d with Some x => [x] | None => [] end) (last (if res_none res then [] else [c]) T).
  Proof.
    intros (groups & lost & held & F & (a & AS & -> & HA) & P & HL) E HK HM. unfold popped_one in E.
    destruct (g_call ne (GoSeparate 0 false f c) g) as [[r1 g1]| |] eqn:E1; cbn [bind] in E; try discriminate.
    destruct (g_call ne (if f then GoForcePop else GoPop) g1) as [[r2 g2]| |] eqn:E2; cbn [bind] in E; try discriminate. injection E as <- <-.
    destruct (call_core (GoSeparate 0 false f c) g a T r1 g1 AS I (conj eq_refl eq_refl) E1) as (a1 & gr & miss & EA & AS1 & F1 & P1 & M1).
    { intros HST. split; [exact I|exact (HK HST)]. }
    destruct (call_core (if f then GoForcePop else GoPop) g1 a1 (last (op_times (GoSeparate 0 false f c)) T) r2 g2 AS1)
      as (a2 & gr2 & miss2 & EA2 & AS2 & F2 & P2 & M2); auto.
    { destruct f; exact I. }
    { destruct f; exact I. }
    { intros HST. destruct f; simpl; auto. }
    simpl op_got in F1. inversion F1; subst gr. clear F1. simpl in P1. rewrite app_nil_r in P1.
    replace (op_got (if f then GoForcePop else GoPop) r2) with (match out_ptr r2 with Some x => [x] | None => [] end) in F2 by now destruct f.
    replace (op_sent (if f then GoForcePop else GoPop)) with (@nil rop) in P2 by now destruct f. rewrite app_nil_r in P2.
    replace (last (op_times (if f then GoForcePop else GoPop)) (last (op_times (GoSeparate 0 false f c)) T)) with (last (if res_none res then [] else [c]) T) in AS2
      by now destruct f.
    exists (groups ++ gr2), (lost ++ miss ++ miss2), (aheld a2). split; [apply Forall2_app; auto|]. split; [|split].
    - exists a2. split; auto. split; auto. intros HMO. specialize (HM HMO). destruct (HA HMO) as [Q1 Q2]. subst f a1 a2. unfold quiet. simpl.
      unfold spec_deliver, spec_advance. destruct (_ <? _); simpl; rewrite ?Q1, ?Q2; simpl; rewrite ?Q1, ?Q2; simpl; auto; destruct (sp_open (as_sp a)); simpl; rewrite ?Q1, ?Q2; auto.
    - rewrite <- P. rewrite all_ops_app. rewrite <- P1, <- P2. rewrite <- !app_assoc. do 3 apply Permutation_app_head.
      rewrite (Permutation_app_comm miss2 (miss ++ lost)), <- app_assoc. rewrite Permutation_app_swap_app. reflexivity.
    - intros HST. destruct (HL HST) as [-> L]. rewrite (M1 HST), (M2 HST). split; auto. specialize (HK HST). apply last_forward in HK. lia.
  Qed.

  (** A new aggregator *)
  Lemma new_cell c rnd now g S G T : agg_new ao c rnd now = Ok g -> cell_inv None S G T ->
    (st = true -> forward T [given_time res c now]) -> cell_inv (Some g) S G (given_time res c now) /\ g_id g = true.
  Proof.
    intros E (groups & lost & held & F & -> & P & HL) HK. pose proof (new_asim ne ao c rnd now g Hs E) as AS.
    assert (ID : g_id g = true).
    { unfold agg_new in E. destruct (sep_new _ _ _ _); cbn [bind] in E; try discriminate. now injection E as <-. }
    split; auto. exists groups, lost, []. split; auto. split; [|split; auto].
    - eexists. split; [split; [exact AS|split; [exact ID|]]|split; [reflexivity|intros; split; reflexivity]].
      intros HST. destruct (HL HST) as [_ L]. destruct (HK HST) as [K _]. split; auto. split; [lia|]. simpl.
      unfold agg_new in E. destruct (sep_new _ _ _ _) as [s| |] eqn:ES; cbn [bind] in E; try discriminate. injection E as <-. unfold agg_label. simpl.
      unfold sep_new in ES. destruct (get_ts _ _ _ _) as [t| |] eqn:EG; cbn [bind] in ES; try discriminate.
      apply get_ts_ok in EG as [-> _]; [|exact Hs]. unfold sep_label.
      destruct (if negb (so_soiled (ao_sep ao) =? 0) then _ else _) as [t1| |] eqn:E1; cbn [bind] in ES; try discriminate.
      destruct (chk (t1 + so_step (ao_sep ao))) as [nx| |] eqn:E2; cbn [bind] in ES; try discriminate. injection ES as <-. simpl.
      apply chk_ok in E2 as [-> _]. fold step res in E1 |- *. unfold acc_time in E1.
      destruct (negb _); [|injection E1 as <-; lia]. apply chk_ok in E1 as [-> _].
      pose proof (Z.rem_nonneg (rnd * rnd) (so_soiled (ao_sep ao))) as RN.
      destruct (Z.eq_dec (so_soiled (ao_sep ao)) 0) as [EZ|NZ]; [rewrite EZ; rewrite Zquot.Zrem_0_r in *; nia|].
      specialize (RN NZ ltac:(nia)). lia.
    - intros HST. destruct (HL HST) as [-> L]. destruct (HK HST) as [K _]. split; auto. lia.
  Qed.

  (** At the end *)
  Lemma cell_disabled g S G T : st = false -> cell_inv (Some g) S G T -> cell_inv (Some (g_enable false g)) S G T.
  Proof.
    intros N H. pose proof (call_cell (GoEnable false) g S G T _ _ H I I eq_refl) as C. simpl in C. rewrite !app_nil_r in C. apply C; auto.
    intros. congruence.
  Qed.
End Cell.

Section Later.
  Variable ne : nat -> list Z -> list Z.
  Variable ao : aopts.
  Hypothesis Hs : 0 < so_step (ao_sep ao).
  Variables st mo : bool.
  Lemma later_cell c S G T T' : (st = true -> T <= T') -> cell_inv ne ao st mo c S G T -> cell_inv ne ao st mo c S G T'.
  Proof.
    intros HT (groups & lost & held & F & HC & P & HL). exists groups, lost, held. split; auto. split; [|split; auto].
    - destruct c as [g|]; auto. destruct HC as (a & (AS & ID & HA) & HH). exists a. split; auto. split; auto. split; auto.
      intros HST. destruct (HA HST) as (A1 & A2 & A3). specialize (HT HST). split; auto. split; [lia|].
      pose proof (trunc_mono _ _ _ Hs HT). lia.
    - intros HST. destruct (HL HST). specialize (HT HST). split; auto. lia.
  Qed.
End Later.

(** ** The lives of the aggregators behind a name *)
Lemma subseq_refl {A} (l : list A) : subseq l l.
Proof. induction l; constructor; auto. Qed.
Lemma subseq_app {A} (a b c d : list A) : subseq a b -> subseq c d -> subseq (a ++ c) (b ++ d).
Proof. induction 1; intros H1; simpl; auto; constructor; auto. Qed.
Lemma subseq_none {A} (l : list A) : subseq [] l.
Proof. induction l; constructor; auto. Qed.
Lemma g_run_snoc ne op : forall ops g outs g1, g_run ne g ops = Ok (outs, g1) -> forall r g2, g_call ne op g1 = Ok (r, g2) ->
  g_run ne g (ops ++ [op]) = Ok (outs ++ [r], g2).
Proof.
  induction ops as [|x ops IH]; intros g outs g1 E r g2 EC; cbn [g_run app] in *.
  - injection E as <- <-. now rewrite EC.
  - destruct (g_call ne x g) as [[r0 g0]| |]; cbn [bind] in *; try discriminate.
    destruct (g_run ne g0 ops) as [[rs g3]| |] eqn:ER; cbn [bind] in *; try discriminate. injection E as <- <-.
    now rewrite (IH _ _ _ ER _ _ EC).
Qed.
Lemma deliveries_snoc op r : forall ops outs, length ops = length outs ->
  deliveries (ops ++ [op]) (outs ++ [r]) = deliveries ops outs ++ deliveries [op] [r].
Proof.
  induction ops as [|x ops IH]; intros [|y outs] H; try discriminate; auto. cbn [app deliveries]. injection H as H.
  rewrite (IH _ H), <- !app_assoc. reflexivity.
Qed.
Lemma g_run_length ne : forall ops g outs g1, g_run ne g ops = Ok (outs, g1) -> length ops = length outs.
Proof.
  induction ops as [|x ops IH]; intros g outs g1 E; cbn [g_run] in E; [now injection E as <- _|].
  destruct (g_call ne x g) as [[r0 g0]| |]; cbn [bind] in *; try discriminate.
  destruct (g_run ne g0 ops) as [[rs g3]| |] eqn:ER; cbn [bind] in *; try discriminate. injection E as <- _. simpl. f_equal. eauto.
Qed.

Section Hist.
  Variable ne : nat -> list Z -> list Z.
  Hypothesis Hne : nth_element_ok ne.
  Variable ao : aopts.
  Let step := so_step (ao_sep ao).
  Let res := so_res (ao_sep ao).
  Hypothesis Hs : 0 < step.
  Variables st mo : bool.

  Definition life_good (l : life) : Prop := Forall gop_typed (lf_ops l) /\ Forall life_op (lf_ops l) /\ exists g, lived ne ao l g.
  Definition hist (c : option agg) (S : list sample) (G : list adata) : Prop :=
    exists lives, Forall life_good lives /\ G = flat_map life_records lives /\ subseq (flat_map life_samples lives) S /\
      match c with Some g => exists past l, lives = past ++ [l] /\ lived ne ao l g | None => True end /\
      (st = true -> flat_map life_samples lives = S /\ (length lives <= 1)%nat /\ (c = None -> lives = [])).
  Definition op_smp (op : gop) : list sample := match op with GoAdd x _ _ | GoPush x _ _ _ => [x] | _ => [] end.
  Lemma smp_sent op : map sm_op (op_smp op) = op_sent op.
  Proof. now destruct op. Qed.
  Lemma got_deliver op g r g' : op_allowed op -> g_call ne op g = Ok (r, g') -> deliveries [op] [r] = op_got op r.
  Proof.
    intros HO E. cbn [deliveries]. rewrite app_nil_r. destruct op; simpl in HO; try contradiction; simpl op_got; cbn [g_call] in E.
    - destruct (match x with SmScalar ts v c => _ | _ => _ end) as [[b g1]| |]; cbn [bind] in E; try discriminate. now injection E as <- _.
    - destruct (match x with SmScalar ts v c => _ | _ => _ end) as [[[b recs] g1]| |]; cbn [bind] in E; try discriminate. injection E as <- _. simpl. now rewrite app_nil_r.
    - destruct (g_separate ne c ts h force g) as [[[b recs] g1]| |]; cbn [bind] in E; try discriminate. now injection E as <- _.
    - destruct (g_pop g) as [a g1]. now injection E as <- _.
    - destruct (g_force_pop ne g) as [[a g1]| |]; cbn [bind] in E; try discriminate. now injection E as <- _.
    - now injection E as <- _.
  Qed.
  Lemma hist_call op g S G r g' : hist (Some g) S G -> gop_typed op -> op_allowed op -> g_call ne op g = Ok (r, g') ->
    hist (Some g') (S ++ op_smp op) (G ++ op_got op r).
  Proof.
    intros (lives & F & EG & SS & (past & l & -> & (g0 & E0 & E1)) & ST) HT HO E.
    set (l1 := mk_life (lf_clock l) (lf_rnd l) (lf_now l) (lf_ops l ++ [op]) (lf_outs l ++ [r])).
    assert (L1 : lived ne ao l1 g') by (exists g0; split; auto; exact (g_run_snoc ne op _ _ _ _ E1 _ _ E)).
    assert (SM : life_samples l1 = life_samples l ++ op_smp op).
    { unfold life_samples. cbn [lf_ops l1]. rewrite flat_map_app. simpl. now rewrite app_nil_r. }
    apply Forall_app in F as [F1 F2]. inversion F2 as [|? ? (G1 & G2 & G3) _]; subst.
    rewrite flat_map_app in *. simpl in SS, ST |- *. rewrite app_nil_r in *.
    exists (past ++ [l1]). split; [|split; [|split; [|split]]].
    - apply Forall_app. split; auto. constructor; [|constructor]. split; [|split; [|eauto]]; apply Forall_app; split; auto.
    - assert (RC : life_records l1 = life_records l ++ op_got op r).
      { unfold life_records. cbn [lf_ops lf_outs l1]. rewrite deliveries_snoc by (eapply g_run_length; eauto). now rewrite (got_deliver op g r g' HO E). }
      rewrite flat_map_app. simpl. rewrite app_nil_r, RC. now rewrite <- app_assoc.
    - rewrite flat_map_app. simpl. rewrite app_nil_r, SM, app_assoc. apply subseq_app; auto. apply subseq_refl.
    - eauto.
    - intros HST. destruct (ST HST) as (A & B & _). rewrite flat_map_app. simpl. rewrite app_nil_r, SM, app_assoc, A.
      rewrite app_length in *. simpl in *. split; auto. split; [auto|discriminate].
  Qed.
  Lemma hist_new c rnd now g S G : agg_new ao c rnd now = Ok g -> hist None S G -> hist (Some g) S G.
  Proof.
    intros E (lives & F & EG & SS & _ & ST). exists (lives ++ [mk_life c rnd now [] []]).
    assert (L1 : lived ne ao (mk_life c rnd now [] []) g) by (exists g; split; auto).
    rewrite !flat_map_app. simpl. rewrite !app_nil_r. split; [|split; [|split; [|split]]]; auto.
    - apply Forall_app. split; auto. constructor; [|constructor]. split; [constructor|]. split; [constructor|eauto].
    - eauto.
    - intros HST. destruct (ST HST) as (A & B & C). rewrite (C eq_refl) in *. split; auto. split; [auto|discriminate].
  Qed.
  Lemma hist_gone c S G x : hist c S G -> st = false -> hist c (S ++ x) G.
  Proof.
    intros (lives & F & EG & SS & HC & ST) N. exists lives. split; auto. split; auto. split; [|split; [auto|congruence]].
    rewrite <- (app_nil_r (flat_map life_samples lives)). apply subseq_app; auto. apply subseq_none.
  Qed.
  Lemma hist_kill c S G : hist c S G -> st = false -> hist None S G.
  Proof. intros (lives & F & EG & SS & HC & ST) N. exists lives. split; auto. split; auto. split; auto. split; [auto|congruence]. Qed.

  (** ** The order of the records, as long as nothing is queued *)
  Lemma drel_ts q d : drel ne (so_red (ao_sep ao)) (ao_out ao) q d -> ad_ts d = fst q.
  Proof. intros (a & (ops & a0 & _ & _ & _ & ->) & F). destruct F as (F1 & _). unfold ad_ts. rewrite F1. reflexivity. Qed.
  Lemma sim_label g a : ASim ne (so_red (ao_sep ao)) (ao_out ao) step res g a -> agg_label g = sp_cur (as_sp a).
  Proof. intros ((T1 & T2 & T3 & _) & _). unfold agg_label, sep_label. rewrite T3, T1. lia. Qed.
  Lemma window_up w t : w + step <= t -> w <= window_of w step t.
  Proof. intros H. unfold window_of. pose proof (Z.div_pos (t - w) step ltac:(lia) Hs). nia. Qed.
  Definition few (g : agg) (N : list adata) : Prop := N = [] \/ exists d, N = [d] /\ ad_ts d = agg_label g.
  Lemma call_label op g a r g' : ASim ne (so_red (ao_sep ao)) (ao_out ao) step res g a -> quiet a -> gop_typed op -> g_call ne op g = Ok (r, g') ->
    match op with GoPush _ h _ _ => h = true | GoPop | GoForcePop | GoEnable _ => True | _ => False end ->
    agg_label g <= agg_label g' /\ few g (op_got op r).
  Proof.
    intros AS [Q1 Q2] HT E HM. pose proof (gcall_sim ne Hne _ _ step res g a op r g' Hs AS HT E) as C.
    destruct (aspec_call step res op a) as [so a1] eqn:EC. destruct C as [(B1 & B2 & B3) AS1]. rewrite (sim_label _ _ AS), (sim_label _ _ AS1). unfold few. rewrite (sim_label _ _ AS).
    destruct op; try contradiction; cbn [aspec_call] in EC; cbn [op_got].
    - subst h. simpl negb in EC. cbv iota in EC. destruct (negb (as_en a)).
      { injection EC as <- <-. simpl in B2. inversion B2. split; [lia|auto]. }
      cbn [spec_call] in EC. unfold spec_put, spec_deliver, spec_advance in EC.
      destruct (Z.ltb_spec (adv_time step res c1 c2 (sm_ts x)) (sp_cur (as_sp a) + step)) as [L|L]; cbn [fst snd] in EC.
      + destruct (_ <? _); injection EC as <- <-; simpl in B2; inversion B2; simpl; (split; [lia|auto]).
      + pose proof (window_up _ _ L) as W. assert (A1 : sp_cur (as_sp a1) = window_of (sp_cur (as_sp a)) step (adv_time step res c1 c2 (sm_ts x))).
        { simpl in EC. destruct (_ <? window_of _ _ _); injection EC as _ <-; reflexivity. }
        assert (A2 : po_handler so = match sp_open (as_sp a) with [] => [] | g => [(sp_cur (as_sp a), g)] end).
        { simpl in EC. destruct (_ <? window_of _ _ _); injection EC as <- _; reflexivity. }
        rewrite A1. split; [exact W|]. rewrite A2 in B2. destruct (sp_open (as_sp a)); [inversion B2; auto|]. inversion B2 as [|? d ? ? D B4]; subst. inversion B4; subst.
        right. exists d. split; auto. exact (drel_ts _ _ D).
    - rewrite Q1 in EC. injection EC as <- <-. simpl in B3. destruct (out_ptr r); [contradiction|]. split; [lia|auto].
    - cbn [spec_call] in EC. rewrite Q2 in EC. injection EC as <- <-. simpl in B3. simpl. split; [lia|].
      destruct (sp_open (as_sp a)), (out_ptr r) as [d|]; try contradiction; auto. right. exists d. split; auto. exact (drel_ts _ _ B3).
    - injection EC as <- <-. simpl. split; [lia|auto].
  Qed.
  Lemma popped_label c g a d g' : ASim ne (so_red (ao_sep ao)) (ao_out ao) step res g a -> quiet a -> popped_one ne false c g = Ok (d, g') ->
    agg_label g <= agg_label g' /\ few g (match d with Some x => [x] | None => [] end).
  Proof.
    intros AS [Q1 Q2] E. unfold popped_one in E.
    destruct (g_call ne (GoSeparate 0 false false c) g) as [[r1 g1]| |] eqn:E1; cbn [bind] in E; try discriminate.
    destruct (g_call ne GoPop g1) as [[r2 g2]| |] eqn:E2; cbn [bind] in E; try discriminate. injection E as <- <-.
    pose proof (gcall_sim ne Hne _ _ step res g a (GoSeparate 0 false false c) r1 g1 Hs AS I E1) as C1. cbn [aspec_call spec_call] in C1. unfold spec_deliver, spec_advance in C1. cbn [fst snd] in C1.
    destruct C1 as [_ AS1]. set (a1 := as_drain _ _) in AS1.
    pose proof (gcall_sim ne Hne _ _ step res g1 a1 GoPop r2 g2 Hs AS1 I E2) as C2. destruct (aspec_call step res GoPop a1) as [so a2] eqn:EC. destruct C2 as [(B1 & B2 & B3) AS2].
    rewrite (sim_label _ _ AS), (sim_label _ _ AS2). unfold few. rewrite (sim_label _ _ AS). cbn [aspec_call] in EC. subst a1.
    destruct (Z.ltb_spec (acc_time step res c 0) (sp_cur (as_sp a) + step)) as [L|L]; simpl in EC; rewrite Q1, Q2 in EC; simpl in EC.
    - injection EC as <- <-. simpl in *. destruct (out_ptr r2); [contradiction|]. split; [lia|auto].
    - pose proof (window_up _ _ L). destruct (sp_open (as_sp a)) as [|o1 os]; simpl in EC; injection EC as <- <-; simpl in *.
      + destruct (out_ptr r2); [contradiction|]. split; [lia|auto].
      + destruct (out_ptr r2) as [d|]; [|contradiction]. split; [lia|]. right. exists d. split; auto. exact (drel_ts _ _ B3).
  Qed.
  Definition ord (c : option agg) (G : list adata) : Prop := mo = true -> st = true ->
    match c with Some g => StronglySorted Z.le (map ad_ts G) /\ Forall (fun d => ad_ts d <= agg_label g) G | None => True end.
  Lemma sorted_snoc l x : StronglySorted Z.le l -> Forall (fun y => y <= x) l -> StronglySorted Z.le (l ++ [x]).
  Proof.
    induction l as [|y l IH]; intros A B; simpl; [repeat constructor|]. inversion A; inversion B; subst. constructor; auto. apply Forall_app. split; auto.
  Qed.
  Lemma ord_more g g' G N : ord (Some g) G -> (mo = true -> st = true -> agg_label g <= agg_label g' /\ few g N) -> ord (Some g') (G ++ N).
  Proof.
    intros H K M S. destruct (H M S) as [H1 H2]. destruct (K M S) as [L [->|(d & -> & D)]].
    - rewrite app_nil_r. split; auto. eapply Forall_impl; [|exact H2]. simpl. intros. lia.
    - rewrite map_app. split.
      + apply sorted_snoc; auto. rewrite Forall_map. eapply Forall_impl; [|exact H2]. simpl. intros. lia.
      + apply Forall_app. split; [|constructor; [lia|constructor]]. eapply Forall_impl; [|exact H2]. simpl. intros. lia.
  Qed.

  Definition cell2_inv (c : option agg) (S : list sample) (G : list adata) (T : Z) : Prop :=
    cell_inv ne ao st mo c (map sm_op S) G T /\ hist c S G /\ ord c G.
  Lemma gone2_inv g S G T x : cell2_inv g S G T -> st = false -> cell2_inv g (S ++ x) G T.
  Proof. intros (A & B & C) N. split; [rewrite map_app; apply gone_inv; auto|split; [apply hist_gone; auto|auto]]. Qed.
  Lemma kill2_inv g S G T : cell2_inv g S G T -> st = false -> cell2_inv None S G T.
  Proof. intros (A & B & C) N. split; [eapply kill_inv; eauto|split; [eapply hist_kill; eauto|intros _ X; exact I]]. Qed.
  Lemma call2_cell op g S G T r g' : cell2_inv (Some g) S G T -> gop_typed op -> op_allowed op -> g_call ne op g = Ok (r, g') ->
    (st = true -> op_kept op /\ forward T (op_times ao op)) ->
    (mo = true -> match op with GoPush _ h _ _ => h = true | GoPop | GoForcePop | GoEnable _ => True | _ => False end) ->
    cell2_inv (Some g') (S ++ op_smp op) (G ++ op_got op r) (last (op_times ao op) T).
  Proof.
    intros (A & B & C) HT HO E HK HM. split; [rewrite map_app, smp_sent; eapply (call_cell ne Hne ao Hs st mo); eauto|split; [eapply hist_call; eauto|]].
    apply (ord_more g); auto. intros M _. destruct A as (groups & lost & held & _ & (a & (AS & _) & _ & HQ) & _). exact (call_label op g a r g' AS (HQ M) HT E (HM M)).
  Qed.
  Lemma popped2_cell f c g S G T d g' : cell2_inv (Some g) S G T -> popped_one ne f c g = Ok (d, g') ->
    (st = true -> forward T (if res_none res then [] else [c])) -> (mo = true -> f = false) ->
    cell2_inv (Some g') S (G ++ match d with Some x => [x] | None => [] end) (last (if res_none res then [] else [c]) T).
  Proof.
    intros (A & B & C) E HK HM. split; [eapply (popped_cell ne Hne ao Hs st mo); eauto|split].
    2: { apply (ord_more g); auto. intros M _. destruct A as (groups & lost & held & _ & (a & (AS & _) & _ & HQ) & _). rewrite (HM M) in E. exact (popped_label c g a d g' AS (HQ M) E). }
    unfold popped_one in E.
    destruct (g_call ne (GoSeparate 0 false f c) g) as [[r1 g1]| |] eqn:E1; cbn [bind] in E; try discriminate.
    destruct (g_call ne (if f then GoForcePop else GoPop) g1) as [[r2 g2]| |] eqn:E2; cbn [bind] in E; try discriminate. injection E as <- <-.
    pose proof (hist_call (GoSeparate 0 false f c) g S G r1 g1 B I (conj eq_refl eq_refl) E1) as H1. simpl op_smp in H1. simpl op_got in H1. rewrite !app_nil_r in H1.
    pose proof (hist_call (if f then GoForcePop else GoPop) g1 S G r2 g2 H1) as H2.
    destruct f; simpl op_smp in H2; simpl op_got in H2; rewrite app_nil_r in H2; apply H2; auto; exact I.
  Qed.
  Lemma new2_cell c rnd now g S G T : agg_new ao c rnd now = Ok g -> cell2_inv None S G T ->
    (st = true -> forward T [given_time res c now]) -> cell2_inv (Some g) S G (given_time res c now) /\ g_id g = true.
  Proof.
    intros E (A & B & C) HK. destruct (new_cell ne ao Hs st mo c rnd now g _ G T E A HK) as [D F]. split; auto. split; auto. split; [eapply hist_new; eauto|].
    intros _ HST. destruct B as (lives & _ & -> & _ & _ & ST). destruct (ST HST) as (_ & _ & ->); auto. simpl. split; constructor.
  Qed.
  Lemma cell2_disabled g S G T : st = false -> cell2_inv (Some g) S G T -> cell2_inv (Some (g_enable false g)) S G T.
  Proof.
    intros N H. pose proof (call2_cell (GoEnable false) g S G T _ _ H I I eq_refl) as C. simpl in C. rewrite !app_nil_r in C. apply C; auto.
    intros. congruence.
  Qed.
  Lemma later2_cell c S G T T' : (st = true -> T <= T') -> cell2_inv c S G T -> cell2_inv c S G T'.
  Proof. intros HT (A & B). split; auto. eapply (later_cell ne ao Hs); eauto. Qed.
End Hist.

Section Reg.
  Variable ne : nat -> list Z -> list Z.
  Hypothesis Hne : nth_element_ok ne.
  Variable o : rgopts.
  Variable N : nat.
  Hypothesis F : fits o N.
  Let ao := rgo_agg o.
  Let res := so_res (ao_sep ao).
  Hypothesis Hs : 0 < so_step (ao_sep ao).
  Variables st mo : bool.
  Variable n : name.
  Hypothesis Hn : n <> [].
  Notation cell_inv := (cell2_inv ne ao st mo).
  Notation slot := (slot o).

  Definition aggof (r : registry) (m : name) : option agg := match slot r m with Some (_, _, g) => Some g | None => None end.
  Definition objof (r : registry) (m : name) : option (Z * nat) := match slot r m with Some (i, s, _) => Some (i, s) | None => None end.
  Definition Reg (k : nat) (r : registry) (S : list sample) (G : list adata) (T : Z) : Prop :=
    RInv o k r /\ (k <= N)%nat /\ rg_initializer r = false /\ (st = true -> rg_enabled r = true) /\ cell_inv (aggof r n) S G T.
  (** Objects stay where they are; that of [n] stays altogether if nothing is lost. *)
  Definition ev (r r' : registry) : Prop :=
    (rg_next r <= rg_next r')%nat /\
    (forall m i s, objof r' m = Some (i, s) -> (s < rg_next r)%nat -> objof r m = Some (i, s)) /\
    (st = true -> forall i s, objof r n = Some (i, s) -> objof r' n = Some (i, s)).
  Lemma ev_refl r : ev r r. Proof. split; [lia|]. split; auto. Qed.
  Lemma ev_trans a b c : ev a b -> ev b c -> ev a c.
  Proof. intros (A1 & A2 & A3) (B1 & B2 & B3). split; [lia|]. split; auto. intros m i s H L. apply A2; auto. apply B2; auto. lia. Qed.
  Lemma ev_same r r' : rg_next r' = rg_next r -> (forall m, objof r' m = objof r m) -> ev r r'.
  Proof. intros H1 H2. split; [lia|]. split; intros; [rewrite <- H2|rewrite H2]; auto. Qed.
  Lemma set_obj r pos s g g' m : nth_error (rg_arr r) pos = Some (Some (s, g)) -> objof (rg_set pos (Some (s, g')) r) m = objof r m.
  Proof.
    intros E. unfold objof, slot. simpl. destruct (m_find name_eqb m _) as [id|]; auto.
    destruct (Nat.eq_dec pos (posn (rgo_step o) id)) as [<-|NE].
    - rewrite set_nth_same by (now apply nth_error_lt in E). now rewrite E.
    - now rewrite set_nth_other.
  Qed.
  Lemma obj_name k r m m' i i' s : RInv o k r -> objof r m = Some (i, s) -> objof r m' = Some (i', s) -> m = m' /\ i = i'.
  Proof.
    intros I H H'. unfold objof in *. destruct (slot r m) as [[[a b] c]|] eqn:E; try discriminate. injection H as -> ->.
    destruct (slot r m') as [[[a' b'] c']|] eqn:E'; try discriminate. injection H' as -> ->.
    destruct (slot_live o k r m i s c I E) as (_ & E1 & E2). destruct (slot_live o k r m' i' s c' I E') as (_ & E1' & E2').
    pose proof (ri_uniq _ _ _ I _ _ _ _ _ E2 E2') as P.
    destruct (ri_live _ _ _ I _ _ E1) as (j & _ & ->). destruct (ri_live _ _ _ I _ _ E1') as (j' & _ & ->).
    apply (posn_inj o N F) in P. subst j'. split; auto. apply (ri_inv _ _ _ I) in E1, E1'. congruence.
  Qed.
  Lemma obj_young k r m i s : RInv o k r -> objof r m = Some (i, s) -> (s < rg_next r)%nat.
  Proof.
    intros I H. unfold objof in H. destruct (slot r m) as [[[a b] c]|] eqn:E; try discriminate. injection H as -> ->.
    destruct (slot_live o k r m i s c I E) as (_ & _ & E2). apply (ri_arr _ _ _ I _ _ _ E2).
  Qed.
  Lemma obj_named k r m i s : RInv o k r -> objof r m = Some (i, s) -> rg_get_name i r = m /\ m <> [].
  Proof.
    intros I H. unfold objof in H. destruct (slot r m) as [[[a b] c]|] eqn:E; try discriminate. injection H as -> ->.
    destruct (slot_live o k r m i s c I E) as (_ & E1 & _). split; [apply (get_name_of o k r i m I E1)|].
    intros ->. rewrite (ri_noname _ _ _ I) in E1. discriminate.
  Qed.
  Lemma same_slots_obj r r' : (forall m, m <> [] -> slot r' m = slot r m) -> slot r' [] = slot r [] -> forall m, objof r' m = objof r m.
  Proof. intros H H0 m. unfold objof. destruct m as [|x m]; [now rewrite H0|]. rewrite H; auto. discriminate. Qed.
  Lemma slot_nil k r : RInv o k r -> slot r [] = None.
  Proof. intros I. unfold slot. now rewrite (ri_noname _ _ _ I). Qed.

  Lemma R_create k r S G T e m now id r' : Reg k r S G T -> (k < N)%nat -> rg_create ne e m now r = Ok (id, r') ->
    (st = true -> forward T (if name_eqb m n then [given_time res (ce_clock e) now] else [])) ->
    exists k', (k' <= Datatypes.S k)%nat /\ Reg k' r' S G (last (if name_eqb m n then [given_time res (ce_clock e) now] else []) T) /\ ev r r' /\
      (forall m' i s, objof r m' = Some (i, s) -> objof r' m' = Some (i, s)) /\
      (m = [] -> id = bad_id) /\ (m <> [] -> exists s, objof r' m = Some (id, s)).
  Proof.
    intros (I & Hk & HI & HE & HC) Hk1 E HT. destruct (create_sim ne o N F k r e m now id r' I Hk E) as [C1 C2].
    destruct (list_eq_dec ascii_dec m []) as [->|NM].
    - destruct (C1 eq_refl) as [-> ->]. exists k. split; [lia|]. destruct (name_eqb_spec [] n); [congruence|].
      split; [exact (conj I (conj Hk (conj HI (conj HE HC))))|]. split; [apply ev_refl|]. split; auto. split; [auto|congruence].
    - destruct (C2 NM) as (k' & g1 & Hk' & I' & [FL1 FL2] & EN & SO & CC & (s & SL) & SAME & IDX & FR). clear C1 C2.
      assert (KEEP : forall m' i s, objof r m' = Some (i, s) -> objof r' m' = Some (i, s)).
      { intros m' i' s' H. destruct (list_eq_dec ascii_dec m' m) as [->|NE]; [|unfold objof in *; rewrite SO; auto].
        destruct (m_find name_eqb m (d_dict (rg_dict r))) as [i0|] eqn:E0.
        - assert (r' = r) by (apply SAME; congruence). now subst r'.
        - unfold objof, slot in H. rewrite E0 in H. discriminate. }
      exists k'. split; [lia|]. split; [|split; [|split; [exact KEEP|split; [congruence|intros _; exists s; unfold objof; now rewrite SL]]]].
      + split; auto. split; [lia|]. split; [congruence|]. split; [rewrite FL1; auto|].
        destruct (name_eqb_spec m n) as [->|NE]; [|unfold aggof; rewrite (SO n) by congruence; exact HC].
        simpl last. unfold aggof. rewrite SL.
        destruct (m_find name_eqb n (d_dict (rg_dict r))) as [i0|] eqn:E0.
        * assert (r' = r) by (apply SAME; congruence). subst r'. unfold aggof in HC. rewrite SL in HC.
          apply (later2_cell ne ao Hs st mo) with (T := T); auto. intros HST. destruct (HT HST). auto.
        * assert (SN : slot r n = None) by (unfold RegProofs.slot; now rewrite E0).
          unfold aggof in HC. rewrite SN in HC.
          unfold cell_create, cellof in CC. rewrite SN in CC. simpl in CC. rewrite HI in CC. fold ao in CC.
          destruct (agg_new ao (ce_clock e) (ce_rnd e) now) as [g| |] eqn:EA; cbn [bind] in CC; try discriminate.
          destruct (new2_cell ne ao Hs st mo (ce_clock e) (ce_rnd e) now g S G T EA HC HT) as [NC _]. fold res in NC.
          destruct (rg_enabled r) eqn:ER; simpl in CC; injection CC as <- _; auto.
          apply (cell2_disabled ne Hne ao Hs); auto. destruct st; auto. specialize (HE eq_refl). discriminate.
      + pose proof (create_succ ne o _ _ _ _ _ _ E) as SU. split; [apply SU|]. split.
        * intros m' i' s' H L. destruct (list_eq_dec ascii_dec m' m) as [->|NE].
          2: { destruct m' as [|x m'']; [unfold objof in H; rewrite (slot_nil k' r' I') in H; discriminate|]. unfold objof in *. rewrite SO in H; auto. }
          unfold objof in H. rewrite SL in H. injection H as <- <-.
          destruct (m_find name_eqb m (d_dict (rg_dict r))) as [i0|] eqn:E0.
          { assert (r' = r) by (apply SAME; congruence). subst r'. unfold objof. now rewrite SL. }
          exfalso. destruct (slot_live o k' r' m id s g1 I' SL) as (LV & _ & _). destruct SU as [_ SU].
          destruct (SU s LV) as [LV'|]; [|lia]. destruct (live_slot o k r s I LV') as (m0 & i0 & g0 & S0).
          assert (NE : m0 <> m). { intros ->. unfold slot in S0. rewrite E0 in S0. discriminate. }
          rewrite <- (SO m0 NE) in S0. destruct (obj_name k' r' m m0 id i0 s I'); [unfold objof; now rewrite SL|unfold objof; now rewrite S0|congruence].
        * intros HST i' s' H. auto.
  Qed.

  Lemma R_call k r S G T id op out r' : Reg k r S G T -> rg_call ne id op r = Ok (out, r') ->
    rg_get_name id r <> [] \/ rg_get id r = Ok None -> gop_typed op -> op_allowed op ->
    (st = true -> rg_get_name id r = n -> op_kept op /\ forward T (op_times ao op)) ->
    (mo = true -> match op with GoPush _ h _ _ => h = true | GoPop | GoForcePop | GoEnable _ => True | _ => False end) ->
    Reg k r' (if name_eqb (rg_get_name id r) n then S ++ op_smp op else S)
             (if name_eqb (rg_get_name id r) n then G ++ op_got op out else G)
             (if name_eqb (rg_get_name id r) n then last (op_times ao op) T else T) /\ ev r r'.
  Proof.
    intros (I & Hk & HI & HE & HC) E CL HT HO HK HM. destruct (call_sim ne o N F k r id op out r' I Hk E CL) as (I' & [FL1 FL2] & ED & SL).
    split.
    - split; auto. split; auto. split; [congruence|]. split; [rewrite FL1; auto|]. specialize (SL n Hn).
      destruct (name_eqb (rg_get_name id r) n) eqn:EN; [|unfold aggof; rewrite SL; exact HC].
      destruct SL as (_ & s & g & g' & S1 & S2 & EC). unfold aggof in *. rewrite S1 in HC. rewrite S2.
      apply (call2_cell ne Hne ao Hs st mo op g S G T out g'); auto. intros HST. apply HK; auto. now destruct (name_eqb_spec (rg_get_name id r) n).
    - destruct (call_inv ne o N F k r id op out r' I Hk E) as (_ & _ & NX & _). apply ev_same; auto.
      unfold rg_call in E. destruct (rg_get id r) as [[[pos [s g]]|]| |] eqn:EG; cbn [bind] in E; try discriminate.
      + destruct (g_call ne op g) as [[o1 g1]| |]; cbn [bind] in E; try discriminate. injection E as <- <-.
        apply get_some in EG. intros m. apply (set_obj _ _ _ g). exact EG.
      + injection E as <- <-. auto.
  Qed.

  Lemma R_pop_all k r S G T f clk l r' : Reg k r S G T -> rg_pop_all ne f clk r = Ok (l, r') ->
    (st = true -> forward T (if res_none res then [] else [clk n])) -> (mo = true -> f = false) ->
    Reg k r' S (G ++ flat_map (fun q : name * adata => if name_eqb (fst q) n then [snd q] else []) l) (last (if res_none res then [] else [clk n]) T) /\ ev r r'.
  Proof.
    intros (I & Hk & HI & HE & HC) E HK HM. destruct (pop_all_spec ne o N F f clk k r l r' I Hk E) as (I' & [FL1 FL2] & ED & NX & ND & SL).
    assert (EQ : forall l', NoDup (map fst l') -> flat_map (fun q : name * adata => if name_eqb (fst q) n then [snd q] else []) l' = match m_find name_eqb n l' with Some x => [x] | None => [] end).
    { clear. induction l' as [|[m x] l' IH]; intros ND; auto. simpl. inversion ND; subst. specialize (IH H2). rewrite IH.
      destruct (name_eqb_spec m n) as [->|NE].
      - rewrite name_eqb_refl. simpl. destruct (m_find name_eqb n l') as [x0|] eqn:EF; auto. apply (m_find_In n x0 l' H2) in EF. exfalso. apply H1. now apply (in_map fst) in EF.
      - destruct (name_eqb_spec n m); [congruence|]. reflexivity. }
    rewrite (EQ l ND). split.
    - split; auto. split; auto. split; [congruence|]. split; [rewrite FL1; auto|]. specialize (SL n). unfold aggof in *.
      destruct (slot r n) as [[[id s] g]|] eqn:ES.
      + destruct SL as (g' & S1 & S2). rewrite S1. eapply (popped2_cell ne Hne ao Hs); eauto.
      + destruct SL as (S1 & S2). rewrite S1, S2, app_nil_r. apply (later2_cell ne ao Hs st mo) with (T := T); auto.
        intros HST. apply last_forward. auto.
    - apply ev_same; auto. intros m. specialize (SL m). unfold objof. destruct (slot r m) as [[[id s] g]|].
      + destruct SL as (g' & -> & _). reflexivity.
      + destruct SL as (-> & _). reflexivity.
  Qed.

  Lemma R_enable k r S G T v : Reg k r S G T -> (st = true -> v = true) -> Reg k (rg_enable v r) S G T /\ ev r (rg_enable v r).
  Proof.
    intros (I & Hk & HI & HE & HC) HV. destruct (enable_sim o k r v I) as [I' SL]. split.
    - split; auto. split; auto. split; auto. split; [auto|]. unfold aggof in *. rewrite SL. destruct (slot r n) as [[[id s] g]|]; auto.
      pose proof (call2_cell ne Hne ao Hs st mo (GoEnable v) g S G T _ _ HC Logic.I Logic.I eq_refl) as C. simpl in C. rewrite !app_nil_r in C. apply C; auto.
    - apply ev_same; auto. intros m. unfold objof. rewrite SL. now destruct (slot r m) as [[[id s] g]|].
  Qed.

  Lemma R_del k r S G T m b r' : Reg k r S G T -> rg_del m r = Ok (b, r') -> (st = true -> m <> n) -> Reg k r' S G T /\ ev r r'.
  Proof.
    intros (I & Hk & HI & HE & HC) E HV. destruct (del_sim o N F k r m b r' I Hk E) as (_ & I' & [FL1 FL2] & SN & SO & _ & _ & _ & NX). split.
    - split; auto. split; auto. split; [congruence|]. split; [rewrite FL1; auto|]. unfold aggof in *.
      destruct (list_eq_dec ascii_dec m n) as [->|NE]; [|rewrite SO; auto].
      rewrite SN. apply (kill2_inv ne ao st mo (match slot r n with Some (_, _, g) => Some g | None => None end)); auto. apply Bool.not_true_is_false. intros HST. exact (HV HST eq_refl).
    - split; [lia|]. split.
      + intros m' i s H _. unfold objof in *. destruct (list_eq_dec ascii_dec m' m) as [->|NE]; [rewrite SN in H; discriminate|]. rewrite SO in H; auto.
      + intros HST i s H. unfold objof in *. rewrite SO; auto. intros ->. exact (HV HST eq_refl).
  Qed.
End Reg.
