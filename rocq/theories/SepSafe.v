(** Late samples, totality, clock independence, handler mode. *)
From Coq Require Import ZArith List Bool Permutation Lia Arith Sorted.
From Verif Require Import Base SortFacts ModelTypes ModelAvg ModelReducer SpecReducer ReducerProofs PubProofs
  ModelSeparator SpecSeparator SepProofs SepSpecProofs SepRun.
Import ListNotations.
Local Open Scope Z_scope.

(** * Clock *)
Lemma trunc_nonzero step ts : 0 < step -> step <= Z.abs ts -> truncated step ts <> 0.
Proof.
  intros Hs H E. unfold truncated in E. assert (Z.quot ts step = 0) by nia.
  apply Z.quot_small_iff in H0; lia.
Qed.

Lemma coherent_none step res x c1 c2 : 0 < step -> res_none res = true \/ acc_time step res c1 (sm_ts x) <> 0 ->
  coherent step res (SoAdd x c1 c2) /\ coherent step res (SoPush x c1 c2).
Proof.
  intros Hs H. assert (adv_time step res c1 c2 (sm_ts x) = acc_time step res c1 (sm_ts x)); [|simpl; auto].
  unfold adv_time. set (a := acc_time step res c1 (sm_ts x)) in *. unfold given_time at 1.
  assert (truncated step a = a) by (apply trunc_idem; lia).
  destruct H as [H|H].
  - rewrite H, orb_true_r. auto.
  - rewrite (proj2 (Z.eqb_neq a 0)) by auto. auto.
Qed.

Lemma coherent_explicit step res x c1 c2 : 0 < step -> step <= Z.abs (sm_ts x) ->
  coherent step res (SoAdd x c1 c2) /\ coherent step res (SoPush x c1 c2).
Proof.
  intros Hs H. apply coherent_none; auto. right. unfold acc_time, given_time.
  rewrite (proj2 (Z.eqb_neq (sm_ts x) 0)) by lia. simpl. now apply trunc_nonzero.
Qed.

Section NE.
  Variable ne : nat -> list Z -> list Z.

  Lemma get_ts_clock step res c c' ts : res_none res = true \/ ts <> 0 -> get_ts step res c ts = get_ts step res c' ts.
  Proof.
    intros H. unfold get_ts. destruct H as [H|H].
    - rewrite H, orb_true_r. reflexivity.
    - rewrite (proj2 (Z.eqb_neq ts 0)) by auto. reflexivity.
  Qed.

  Lemma put_clock c1 c2 c1' c2' ts h addf s : 0 < s_step s ->
    res_none (s_res s) = true \/ s_step s <= Z.abs ts ->
    s_put ne c1 c2 ts h addf s = s_put ne c1' c2' ts h addf s.
  Proof.
    intros Hs H. unfold s_put.
    rewrite (get_ts_clock _ _ c1 c1' ts) by (destruct H; [auto|right; lia]).
    destruct (get_ts (s_step s) (s_res s) c1' ts) as [t| |] eqn:E; auto. cbn [bind].
    apply get_ts_ok in E as [-> _]; auto. unfold s_separate.
    rewrite (get_ts_clock _ _ c2 c2' _); auto.
    destruct H; auto. right. unfold acc_time, given_time. rewrite (proj2 (Z.eqb_neq ts 0)) by lia. simpl.
    now apply trunc_nonzero.
  Qed.

  Lemma call_clock x c1 c2 c1' c2' s : 0 < s_step s ->
    res_none (s_res s) = true \/ s_step s <= Z.abs (sm_ts x) ->
    s_call ne (SoAdd x c1 c2) s = s_call ne (SoAdd x c1' c2') s /\
    s_call ne (SoPush x c1 c2) s = s_call ne (SoPush x c1' c2') s.
  Proof.
    intros Hs H. simpl.
    destruct x; simpl in H; unfold s_add, s_add_arr, s_add_list, s_add_red, s_push, s_push_arr, s_push_red;
      rewrite ?(put_clock c1 c2 c1' c2') by auto; auto.
  Qed.

  (** * The loop without invariants on the reducer *)
  Lemma sep_loop_next step ts : 0 < step -> forall fuel next r recs r2 n2,
    sep_loop ne fuel step ts next r = Ok (recs, r2, n2) ->
    n2 = (if next <=? ts then window_of (next - step) step ts + step else next).
  Proof.
    intros Hs. induction fuel as [|fuel IH]; intros next r recs r2 n2 E; simpl in E.
    - destruct (next <=? ts); [discriminate|]. now injection E as _ _ <-.
    - destruct (Z.leb_spec next ts) as [L|L]; [|now injection E as _ _ <-].
      destruct (r_detach ne r) as [[a r1]| |]; cbn [bind] in E; try discriminate.
      destruct (match a with Some _ => _ | None => _ end); cbn [bind] in E; try discriminate.
      destruct (chk (next + step)) as [n1| |] eqn:E1; cbn [bind] in E; try discriminate.
      apply chk_ok in E1 as [-> _].
      destruct (sep_loop ne fuel step ts (next + step) r1) as [[[? ?] ?]| |] eqn:E2; cbn [bind] in E; try discriminate.
      injection E as _ _ <-. apply IH in E2. subst z.
      replace (next + step - step) with next by lia.
      assert (W : window_of (next - step) step ts = window_of next step ts).
      { rewrite <- (window_of_shift (next - step) 1) by lia. f_equal. lia. }
      rewrite W. destruct (Z.leb_spec (next + step) ts); auto. rewrite window_of_fix by lia. lia.
  Qed.

  (** C16 *)
  Lemma put_late c1 c2 ts h addf s b recs s' cur : 0 < s_step s ->
    adv_time (s_step s) (s_res s) c1 c2 ts = acc_time (s_step s) (s_res s) c1 ts ->
    s_current_time s = Ok cur -> s_put ne c1 c2 ts h addf s = Ok (b, recs, s') ->
    let t := acc_time (s_step s) (s_res s) c1 ts in
    (b = false <-> t < cur) /\ (b = false -> recs = [] /\ s' = s).
  Proof.
    intros Hs HC Ec E t. unfold s_current_time in Ec. apply chk_ok in Ec as [-> _].
    unfold s_put in E.
    destruct (get_ts (s_step s) (s_res s) c1 ts) as [t0| |] eqn:Et; cbn [bind] in E; try discriminate.
    apply get_ts_ok in Et as [-> It]; auto. fold t in E, It, HC.
    unfold s_separate in E.
    destruct (get_ts (s_step s) (s_res s) c2 t) as [t2| |] eqn:Et2; cbn [bind] in E; try discriminate.
    apply get_ts_ok in Et2 as [-> It2]; auto.
    change (acc_time (s_step s) (s_res s) c2 t) with (adv_time (s_step s) (s_res s) c1 c2 ts) in E.
    rewrite HC in E. cbn [negb andb] in E. destruct (Z.ltb_spec t (s_next s)) as [L|L].
    - cbn [bind] in E. destruct (chk (s_next s - s_step s)) as [cc| |] eqn:Ecc; cbn [bind] in E; try discriminate.
      apply chk_ok in Ecc as [-> _]. destruct (Z.ltb_spec t (s_next s - s_step s)); injection E as <- <- <-.
      + repeat split; auto.
      + repeat split; try discriminate; lia.
    - destruct (sep_loop _ _ _ _ _ _) as [[[rc r2] n2]| |] eqn:EL; cbn [bind] in E; try discriminate.
      apply sep_loop_next in EL; auto. rewrite (proj2 (Z.leb_le _ _) L) in EL. subst n2.
      pose proof (window_of_spec (s_next s - s_step s) (s_step s) t Hs) as W.
      cbn [s_next s_step] in E.
      destruct (chk _) as [cc| |] eqn:Ecc in E; cbn [bind] in E; try discriminate.
      apply chk_ok in Ecc as [-> _].
      destruct (Z.ltb_spec t (window_of (s_next s - s_step s) (s_step s) t + s_step s - s_step s)); [lia|].
      injection E as <- <- <-. split; [split; [discriminate|lia]|discriminate].
  Qed.

  Lemma call_put x c1 c2 s out s' : s_call ne (SoAdd x c1 c2) s = Ok (out, s') \/ s_call ne (SoPush x c1 c2) s = Ok (out, s') ->
    exists h addf b recs, s_put ne c1 c2 (sm_ts x) h addf s = Ok (b, recs, s') /\ out = mk_sout (Some b) recs None.
  Proof.
    intros [E|E]; simpl in E.
    - set (q := match x with SmScalar _ _ _ => _ | _ => _ end) in E.
      destruct q as [[[b recs] s1]| |] eqn:Eq; cbn [bind] in E; try discriminate. injection E as <- <-.
      destruct x; simpl in *; eexists _, _, b, recs; (split; [exact Eq|reflexivity]).
    - set (q := match x with SmScalar _ _ _ => _ | _ => _ end) in E.
      destruct q as [[[b recs] s1]| |] eqn:Eq; cbn [bind] in E; try discriminate. injection E as <- <-.
      destruct x; simpl in *; try discriminate; eexists _, _, b, recs; (split; [exact Eq|reflexivity]).
  Qed.

  Lemma call_late op x c1 c2 s out s' cur : op = SoAdd x c1 c2 \/ op = SoPush x c1 c2 ->
    0 < s_step s -> coherent (s_step s) (s_res s) op ->
    s_current_time s = Ok cur -> s_call ne op s = Ok (out, s') ->
    (out_bool out = Some false <-> acc_time (s_step s) (s_res s) c1 (sm_ts x) < cur) /\
    (out_bool out <> Some false -> out_bool out = Some true) /\
    (out_bool out = Some false -> out_handler out = [] /\ s' = s).
  Proof.
    intros Ho Hs HC Ec E.
    destruct (call_put x c1 c2 s out s') as (h & addf & b & recs & EP & ->); [destruct Ho; subst; auto|].
    destruct (put_late c1 c2 (sm_ts x) h addf s b recs s' cur Hs ltac:(destruct Ho; subst; exact HC) Ec EP) as [A B].
    simpl. split; [|split].
    - rewrite <- A. split; congruence.
    - destruct b; congruence.
    - intros H. apply B. congruence.
  Qed.

  (** * Fuel *)
  Definition rounds (step ts next : Z) : Z := if 0 <? step then (ts - next) / step + 1 else (next - i64_min) / (- step) + 1.

  Lemma rounds_next step ts next : step <> 0 -> rounds step ts (next + step) = rounds step ts next - 1.
  Proof.
    intros Hs. unfold rounds. destruct (Z.ltb_spec 0 step).
    - replace (ts - (next + step)) with (ts - next + (-1) * step) by lia. rewrite Z.div_add by lia. lia.
    - replace (next + step - i64_min) with (next - i64_min + (-1) * (- step)) by lia. rewrite Z.div_add by lia. lia.
  Qed.
  Lemma rounds_pos step ts next : step <> 0 -> i64 next -> next <= ts -> 1 <= rounds step ts next.
  Proof.
    intros Hs (I & _) L. unfold rounds. destruct (Z.ltb_spec 0 step).
    - pose proof (Z.div_pos (ts - next) step ltac:(lia) ltac:(lia)). lia.
    - pose proof (Z.div_pos (next - i64_min) (- step) ltac:(lia) ltac:(lia)). lia.
  Qed.

  (** Beyond the needed number of rounds the fuel does not matter. *)
  Lemma sep_loop_fuel step ts : step <> 0 -> forall f1 f2 next r, i64 next ->
    rounds step ts next <= Z.of_nat f1 -> rounds step ts next <= Z.of_nat f2 ->
    sep_loop ne f1 step ts next r = sep_loop ne f2 step ts next r.
  Proof.
    intros Hs. induction f1 as [|f1 IH]; intros f2 next r I H1 H2; simpl.
    - destruct (Z.leb_spec next ts) as [L|L]; [pose proof (rounds_pos step ts next Hs I L); lia|].
      destruct f2; simpl; rewrite (proj2 (Z.leb_gt next ts)) by lia; reflexivity.
    - destruct f2 as [|f2]; simpl.
      + destruct (Z.leb_spec next ts) as [L|L]; [pose proof (rounds_pos step ts next Hs I L); lia|reflexivity].
      + destruct (next <=? ts); auto.
        destruct (r_detach ne r) as [[a r1]| |]; cbn [bind]; auto.
        destruct (match a with Some _ => _ | None => _ end); cbn [bind]; auto.
        destruct (chk (next + step)) as [n1| |] eqn:E1; cbn [bind]; auto.
        apply chk_ok in E1 as [-> I1].
        rewrite (IH f2 (next + step) r1 I1); auto; rewrite rounds_next by auto; lia.
  Qed.

  Lemma sep_fuel_enough step ts next : rounds step ts next <= Z.of_nat (sep_fuel step ts next).
  Proof. unfold rounds, sep_fuel. lia. Qed.
End NE.

(** * Totality *)
Section Total.
  Variable ne : nat -> list Z -> list Z.
  Hypothesis Hne : nth_element_ok ne.
  Notation rel := (rel ne).
  Notation Sim := (Sim ne).
  Notation reach := (reach ne).

  Definition open_safe (g : list rop) : Prop := Forall val_safe (values g) /\ Z.of_nat (length (values g)) < two64.

  Lemma reach_detach_ok o g r : reach o g r -> open_safe g -> exists a r', r_detach ne r = Ok (a, r').
  Proof.
    intros R [H1 H2]. pose proof (reach_inv ne Hne o g r R) as W.
    destruct (step_ok ne Hne o g r OpDetach W typed_detach H1 H2) as [r' E]. simpl in E.
    destruct (r_detach ne r) as [[a r1]| |]; try discriminate. eauto.
  Qed.
  Lemma reach_peek_ok o g r : reach o g r -> open_safe g -> exists a, r_get_reduced ne r = Ok a.
  Proof.
    intros R [H1 H2]. pose proof (reach_inv ne Hne o g r R) as W.
    assert (T : op_typed OpPeek) by (split; [constructor|unfold is_u64, two64; simpl; lia]).
    destruct (step_ok ne Hne o g r OpPeek W T H1 H2) as [r' E]. simpl in E.
    destruct (r_get_reduced ne r) as [a| |]; try discriminate. eauto.
  Qed.
  (** As [reach], reduce() allowed. *)
  Definition run_to (o : ropts) (r : reducer) : Prop := exists ops, Forall op_typed ops /\ r_run ne (reducer_new o) ops = Ok r.
  Lemma run_to_detach o r a r' : run_to o r -> r_detach ne r = Ok (a, r') -> run_to o r'.
  Proof.
    intros (ops & HT & E) D. exists (ops ++ [OpDetach]). split; [apply Forall_app; split; auto; constructor; auto using typed_detach|].
    rewrite run_app, E. cbn [bind r_run r_step]. now rewrite D.
  Qed.
  Lemma reach_detach_exn o r : run_to o r -> r_detach ne r <> Exn.
  Proof.
    intros (ops & HT & E) D. apply (run_no_exn ne Hne o (ops ++ [OpDetach])).
    - apply Forall_app. split; auto. constructor; auto using typed_detach.
    - rewrite run_app, E. cbn [bind]. simpl. now rewrite D.
  Qed.

  Lemma sep_loop_total step ts : 0 < step -> ts <= i64_max - step -> forall fuel next r g o,
    i64 next -> i64 (next - step) -> reach o g r -> open_safe g ->
    rounds step ts next <= Z.of_nat fuel -> exists p, sep_loop ne fuel step ts next r = Ok p.
  Proof.
    intros Hs Ht. induction fuel as [|fuel IH]; intros next r g o I1 I2 R OS F; simpl.
    - destruct (Z.leb_spec next ts) as [L|L]; [|eauto]. pose proof (rounds_pos step ts next ltac:(lia) I1 L). lia.
    - destruct (Z.leb_spec next ts) as [L|L]; [|eauto].
      destruct (reach_detach_ok o g r R OS) as (a & r1 & Ed). rewrite Ed. cbn [bind].
      destruct (reach_detach ne Hne o g r a r1 R Ed) as [R1 _].
      assert (I3 : i64 (next + step)) by (unfold i64, i64_min, i64_max in *; lia).
      rewrite (chk_i64 (next - step) I2), (chk_i64 (next + step) I3).
      assert (I4 : i64 (next + step - step)) by (replace (next + step - step) with next by lia; auto).
      assert (OS' : open_safe []) by (split; [constructor|unfold two64; simpl; lia]).
      assert (F' : rounds step ts (next + step) <= Z.of_nat fuel) by (rewrite rounds_next by lia; lia).
      destruct (IH (next + step) r1 [] o I3 I4 R1 OS' F') as ([[recs r2] n2] & E2).
      destruct a; cbn [bind]; rewrite E2; cbn [bind]; eauto.
  Qed.

  Lemma time_ok_i64 step t : 0 < step -> time_ok step t -> i64 t.
  Proof. unfold time_ok, i64. lia. Qed.
  Lemma time_ok_trunc step t : 0 < step -> time_ok step t -> step <= i64_max -> time_ok step (truncated step t).
  Proof.
    intros Hs (H1 & H2) H3. split.
    - pose proof (trunc_i64 step t ltac:(lia)) as (X & _); [unfold i64; lia|auto].
    - unfold truncated. pose proof (Z.quot_rem' t step). destruct (Z_le_gt_dec 0 t).
      + pose proof (Z.rem_nonneg t step). lia.
      + assert (Z.quot t step <= 0); [|nia]. rewrite <- (Z.opp_involutive t), Z.quot_opp_l by lia.
        pose proof (Z.quot_pos (- t) step). lia.
  Qed.
  Lemma time_ok_given step res c t : time_ok step t -> time_ok step c -> time_ok step (given_time res c t).
  Proof. intros. unfold given_time. destruct (_ || _); auto. Qed.

  Lemma separate_total o step res s sp c ts h force : 0 < step <= i64_max -> Sim o step res s sp ->
    i64 (sp_cur sp) -> open_safe (sp_open sp) -> time_ok step ts -> time_ok step c ->
    exists p, s_separate ne c ts h force s = Ok p.
  Proof.
    intros [Hs Hm] SI IC OS T1 T2. destruct SI as (S1 & S2 & S3 & S4 & S5 & S6). unfold s_separate. rewrite S1, S2.
    assert (TG := time_ok_given step res c ts T1 T2).
    rewrite get_ts_spec; auto; [|eapply time_ok_i64; eauto]. cbn [bind]. destruct (_ && _); [eauto|].
    assert (TT : time_ok step (acc_time step res c ts)) by (apply time_ok_trunc; auto).
    destruct (sep_loop_total step (acc_time step res c ts) Hs ltac:(apply TT) (sep_fuel step (acc_time step res c ts) (s_next s))
      (s_next s) (s_red s) (sp_open sp) o S4) as ([[recs r] n] & E); auto.
    - rewrite S3. replace (sp_cur sp + step - step) with (sp_cur sp) by lia. auto.
    - apply sep_fuel_enough.
    - rewrite E. cbn [bind]. eauto.
  Qed.

  Lemma spec_adv_cur step t sp h : 0 < step -> sp_cur sp <= sp_cur (snd (spec_deliver h (spec_advance step t sp))).
  Proof.
    intros Hs. unfold spec_advance. destruct (Z.ltb_spec t (sp_cur sp + step)); unfold spec_deliver; destruct h; simpl; try lia.
    - pose proof (window_of_le (sp_cur sp) step t Hs ltac:(lia)). lia.
    - pose proof (window_of_le (sp_cur sp) step t Hs ltac:(lia)). lia.
  Qed.

  Lemma put_total o step res s sp c1 c2 ts h addf : 0 < step <= i64_max -> Sim o step res s sp ->
    i64 (sp_cur sp) -> open_safe (sp_open sp) -> time_ok step ts -> time_ok step c1 -> time_ok step c2 ->
    exists p, s_put ne c1 c2 ts h addf s = Ok p.
  Proof.
    intros [Hs Hm] SI IC OS T T1 T2. unfold s_put. assert (SI' := SI). destruct SI' as (S1 & S2 & _). rewrite S1, S2.
    assert (TG := time_ok_given step res c1 ts T T1).
    rewrite get_ts_spec; auto; [|eapply time_ok_i64; eauto]. cbn [bind].
    assert (TT : time_ok step (acc_time step res c1 ts)) by (apply time_ok_trunc; auto).
    destruct (separate_total o step res s sp c2 (acc_time step res c1 ts) h false (conj Hs Hm) SI IC OS TT T2) as ([[b recs] s1] & E).
    rewrite E. cbn [bind].
    pose proof (separate_sim ne Hne o step res s sp c2 _ h false b recs s1 Hs SI E) as L. cbv zeta in L.
    pose proof (spec_adv_cur step (acc_time step res c2 (acc_time step res c1 ts)) sp h Hs) as M.
    destruct (spec_deliver h _) as [out sp1]. simpl in M. destruct L as (_ & _ & (R1 & _ & R3 & R4 & _) & _).
    rewrite R1, R3, chk_i64; cbn [bind]. 
    - destruct (_ <? _); eauto.
    - replace (sp_cur sp1 + step - step) with (sp_cur sp1) by lia. rewrite R3 in R4. unfold i64 in *. lia.
  Qed.

  Lemma call_total o step res s sp op : 0 < step <= i64_max -> Sim o step res s sp ->
    i64 (sp_cur sp) -> open_safe (sp_open sp) -> sop_typed op -> sop_safe step op ->
    exists out s', s_call ne op s = Ok (out, s').
  Proof.
    intros Hs SI IC OS HT HS. destruct op; simpl in *.
    - destruct HS as (_ & A & B & C).
      destruct x; unfold s_add, s_add_arr, s_add_list, s_add_red;
        match goal with |- context[s_put ne ?a ?b ?t ?h ?f ?q] =>
          destruct (put_total o step res q sp a b t h f Hs SI IC OS) as ([[b1 recs] s1] & E); auto end;
        rewrite E; cbn [bind]; eauto.
    - destruct HS as (_ & A & B & C). destruct HT as [_ HT].
      destruct x; try contradiction; unfold s_push, s_push_arr, s_push_red;
        match goal with |- context[s_put ne ?a ?b ?t ?h ?f ?q] =>
          destruct (put_total o step res q sp a b t h f Hs SI IC OS) as ([[b1 recs] s1] & E); auto end;
        rewrite E; cbn [bind]; eauto.
    - destruct HS as (A & B).
      destruct (separate_total o step res s sp c ts h force Hs SI IC OS A B) as ([[b recs] s1] & E).
      rewrite E. cbn [bind]. eauto.
    - destruct (s_pop s). eauto.
    - destruct SI as (S1 & S2 & S3 & S4 & S5 & S6). unfold s_force_pop. destruct (s_pop s) as [[a|] s1]; cbn [bind]; eauto.
      destruct (reach_detach_ok o _ _ S5 OS) as (a & r1 & Ed). rewrite Ed. cbn [bind].
      destruct a; cbn [bind]; eauto. rewrite S1, S3. replace (sp_cur sp + step - step) with (sp_cur sp) by lia.
      rewrite chk_i64 by auto. cbn [bind]. eauto.
    - destruct SI as (S1 & S2 & S3 & S4 & S5 & S6). unfold s_get_current.
      destruct (reach_peek_ok o _ _ S5 OS) as (a & Ed). rewrite Ed. cbn [bind].
      destruct a; cbn [bind]; eauto. rewrite S1, S3. replace (sp_cur sp + step - step) with (sp_cur sp) by lia.
      rewrite chk_i64 by auto. cbn [bind]. eauto.
    - destruct HS as (A & B). destruct SI as (S1 & S2 & S3 & S4 & S5 & S6). unfold s_clear. rewrite S1, S2.
      assert (TG := time_ok_given step res c ts A B).
      rewrite get_ts_spec; auto; [|lia|eapply time_ok_i64; [|eauto]; lia]. cbn [bind].
      assert (TT : time_ok step (acc_time step res c ts)) by (apply time_ok_trunc; auto; lia).
      rewrite chk_i64; cbn [bind]; eauto. unfold time_ok, i64 in *. lia.
  Qed.

  (** The abstract state stays safe. *)
  Lemma spec_call_safe step res op sp : 0 < step <= i64_max -> sop_safe step op -> i64_min <= sp_cur sp ->
    Forall val_safe (values (sp_open sp)) ->
    let sp' := snd (spec_call step res op sp) in
    i64_min <= sp_cur sp' /\ Forall val_safe (values (sp_open sp')) /\
    (length (values (sp_open sp')) <= length (values (sp_open sp)) + length (sop_values op))%nat.
  Proof.
    intros [Hs Hm] HS IC OS.
    assert (ADV : forall t h, let sp1 := snd (spec_deliver h (spec_advance step t sp)) in
        i64_min <= sp_cur sp1 /\ (sp_open sp1 = sp_open sp \/ sp_open sp1 = [])).
    { intros t h. pose proof (spec_adv_cur step t sp h Hs). simpl. split; [lia|].
      unfold spec_advance. destruct (t <? _); destruct h; simpl; auto. }
    assert (PUT : forall t1 t2 h x, op_safe x -> let sp1 := snd (spec_put step t1 t2 h x sp) in
        i64_min <= sp_cur sp1 /\ Forall val_safe (values (sp_open sp1)) /\
        (length (values (sp_open sp1)) <= length (values (sp_open sp)) + length (op_values x))%nat).
    { intros t1 t2 h x Hx. unfold spec_put. specialize (ADV t1 h).
      destruct (spec_deliver h _) as [out sp1]. simpl in ADV. destruct ADV as [A B].
      assert (V : Forall val_safe (values (sp_open sp1)) /\ (length (values (sp_open sp1)) <= length (values (sp_open sp)))%nat).
      { destruct B as [-> | ->]; split; auto; simpl; try constructor; lia. }
      destruct V as [V1 V2]. destruct (t2 <? sp_cur sp1); simpl; [repeat split; auto; lia|].
      rewrite values_app. unfold values at 2 4. simpl. rewrite app_nil_r. split; auto. split.
      - apply Forall_app. auto.
      - rewrite app_length. lia. }
    destruct op; simpl in HS; simpl spec_call; simpl sop_values; simpl length.
    - apply PUT. apply HS.
    - apply PUT. apply HS.
    - specialize (ADV (acc_time step res c ts) h). destruct (spec_deliver h _) as [out sp1]. simpl in *.
      destruct ADV as [A [-> | ->]]; split; auto; split; auto; simpl; try constructor; lia.
    - destruct (sp_queue sp); simpl; repeat split; auto; lia.
    - destruct (sp_queue sp); simpl; repeat split; auto; try lia; try constructor.
    - simpl. repeat split; auto; lia.
    - simpl. split.
      + apply (time_ok_trunc step); auto; apply time_ok_given; apply HS.
      + split; [constructor|simpl; lia].
  Qed.

  Lemma run_total o step res ops : 0 < step <= i64_max -> Forall sop_typed ops -> Forall (sop_safe step) ops ->
    forall s sp, Sim o step res s sp -> i64_min <= sp_cur sp ->
    Forall val_safe (values (sp_open sp)) ->
    Z.of_nat (length (values (sp_open sp)) + length (flat_map sop_values ops)) < two64 ->
    exists outs s', s_run ne s ops = Ok (outs, s').
  Proof.
    intros Hs. induction ops as [|op ops IH]; intros HT HS s sp SI IC OS HL; [simpl; eauto|].
    simpl in HL. rewrite app_length in HL. assert (SI' := SI). destruct SI' as (S1 & S2 & S3 & S4 & _).
    destruct (call_total o step res s sp op Hs SI) as (out & s1 & E).
    { rewrite S3 in S4. unfold i64 in *. lia. }
    { split; auto. lia. }
    { exact (Forall_inv HT). }
    { exact (Forall_inv HS). }
    simpl. rewrite E. cbn [bind].
    pose proof (call_sim ne Hne o step res s sp op out s1 ltac:(lia) SI (Forall_inv HT) E) as C.
    pose proof (spec_call_safe step res op sp Hs (Forall_inv HS) IC OS) as P. cbv zeta in P.
    destruct (spec_call step res op sp) as [so sp1]. destruct C as [_ C]. simpl in P. destruct P as (P1 & P2 & P3).
    destruct (IH (Forall_inv_tail HT) (Forall_inv_tail HS) s1 sp1 C P1 P2 ltac:(lia)) as (os & s2 & E2).
    rewrite E2. cbn [bind]. eauto.
  Qed.

  Lemma new_run_total so c rnd ts s0 ops : 0 < so_step so <= i64_max -> sep_new so c rnd ts = Ok s0 ->
    Forall sop_typed ops -> Forall (sop_safe (so_step so)) ops ->
    Z.of_nat (length (flat_map sop_values ops)) < two64 ->
    exists outs s, s_run ne s0 ops = Ok (outs, s).
  Proof.
    intros Hs E HT HS HL. destruct (new_sim ne so c rnd ts s0 ltac:(lia) E) as (SI & I & _).
    apply (run_total (so_red so) (so_step so) (so_res so) ops Hs HT HS s0 _ SI); simpl; auto. apply I.
  Qed.

  Lemma new_total so c rnd ts : 0 < so_step so <= i64_max -> time_ok (so_step so) ts -> time_ok (so_step so) c ->
    so_soiled so = 0 \/ (i64_min + 2 ^ 62 <= ts /\ i64_min + 2 ^ 62 <= c /\ 0 <= rnd < 2 ^ 31 /\ i64 (so_soiled so)) ->
    exists s, sep_new so c rnd ts = Ok s.
  Proof.
    intros [Hs Hm] T1 T2 H. unfold sep_new. assert (TG := time_ok_given (so_step so) (so_res so) c ts T1 T2).
    rewrite get_ts_spec; auto; [|eapply time_ok_i64; eauto]. cbn [bind].
    assert (TT : time_ok (so_step so) (acc_time (so_step so) (so_res so) c ts)) by (apply time_ok_trunc; auto).
    destruct H as [-> |(H1 & H2 & H3 & H4)].
    - simpl. rewrite chk_i64; cbn [bind]; eauto. unfold time_ok, i64 in *. lia.
    - destruct (Z.eqb_spec (so_soiled so) 0) as [Z0|Z0]; simpl.
      + rewrite chk_i64; cbn [bind]; eauto. unfold time_ok, i64 in *. lia.
      + assert (RB : 0 <= Z.rem (rnd * rnd) (so_soiled so) <= rnd * rnd).
        { split; [apply Z.rem_nonneg; nia|].
          rewrite <- (Z.rem_abs_r (rnd * rnd)) by auto. pose proof (Z.rem_le (rnd * rnd) (Z.abs (so_soiled so))). nia. }
        assert (R2 : rnd * rnd <= 2 ^ 62 - 1) by nia.
        set (a := acc_time (so_step so) (so_res so) c ts) in *.
        assert (A : i64_min + 2 ^ 62 <= a).
        { unfold a, acc_time. set (g := given_time (so_res so) c ts) in *.
          assert (G : i64_min + 2 ^ 62 <= g) by (unfold g, given_time; destruct (_ || _); auto).
          unfold truncated. destruct (Z_le_gt_dec 0 g).
          - pose proof (Z.quot_pos g (so_step so)). unfold i64_min. nia.
          - pose proof (Z.quot_rem' g (so_step so)). pose proof (Z.rem_nonpos g (so_step so)). lia. }
        rewrite chk_i64; cbn [bind]; [|unfold time_ok, i64 in *; lia].
        rewrite chk_i64; cbn [bind]; eauto. unfold time_ok, i64, i64_min, i64_max in *. lia.
  Qed.

  (** A negative step: once due, the loop cannot end normally. *)
  Lemma sep_loop_negative step ts : step < 0 -> forall fuel next r p,
    next <= ts -> sep_loop ne fuel step ts next r <> Ok p.
  Proof.
    intros Hs. induction fuel as [|fuel IH]; intros next r p L E; simpl in E;
      rewrite (proj2 (Z.leb_le next ts)) in E by lia; [discriminate|].
    destruct (r_detach ne r) as [[a r1]| |]; cbn [bind] in E; try discriminate.
    destruct (match a with Some _ => _ | None => _ end); cbn [bind] in E; try discriminate.
    destruct (chk (next + step)) as [n1| |] eqn:E1; cbn [bind] in E; try discriminate.
    apply chk_ok in E1 as [-> _].
    destruct (sep_loop ne fuel step ts (next + step) r1) as [q| |] eqn:E2; cbn [bind] in E; try discriminate.
    apply (IH (next + step) r1 q); auto. lia.
  Qed.

  Lemma sep_loop_no_exn step ts : step <> 0 -> forall fuel next r o, i64 next -> run_to o r ->
    rounds step ts next <= Z.of_nat fuel -> sep_loop ne fuel step ts next r <> Exn.
  Proof.
    intros Hs. induction fuel as [|fuel IH]; intros next r o I R F; simpl.
    - destruct (Z.leb_spec next ts) as [L|L]; [|discriminate]. pose proof (rounds_pos step ts next Hs I L). lia.
    - destruct (next <=? ts); [|discriminate].
      pose proof (reach_detach_exn o r R) as NX.
      destruct (r_detach ne r) as [[a r1]| |] eqn:Ed; cbn [bind]; try congruence.
      pose proof (run_to_detach o r a r1 R Ed) as R1.
      set (q := match a with Some _ => _ | None => _ end).
      assert (q <> Exn).
      { unfold q. destruct a; [|discriminate]. unfold chk. destruct (in_i64 _); discriminate. }
      destruct q; cbn [bind]; try congruence.
      destruct (chk (next + step)) as [n1| |] eqn:E1; cbn [bind]; try congruence.
      + apply chk_ok in E1 as [-> I1].
        pose proof (IH (next + step) r1 o I1 R1 ltac:(rewrite rounds_next by auto; lia)) as X.
        destruct (sep_loop ne fuel step ts (next + step) r1) as [[[? ?] ?]| |]; cbn [bind]; congruence.
      + unfold chk in E1. destruct (in_i64 _); discriminate.
  Qed.

  (** The loop's fuel is never exhausted: in particular a negative step ends in overflow. *)
  Lemma sep_loop_negative_ub step ts next r o : step < 0 -> i64 next -> next <= ts -> run_to o r ->
    sep_loop ne (sep_fuel step ts next) step ts next r = Ub.
  Proof.
    intros Hs I L R. pose proof (sep_loop_negative step ts Hs (sep_fuel step ts next) next r) as A.
    pose proof (sep_loop_no_exn step ts ltac:(lia) (sep_fuel step ts next) next r o I R (sep_fuel_enough _ _ _)) as B.
    destruct (sep_loop ne (sep_fuel step ts next) step ts next r); auto; [|congruence]. exfalso. exact (A a L eq_refl).
  Qed.
End Total.

(** * Handler mode *)
Section Handler.
  Variable ne : nat -> list Z -> list Z.

  Definition with_list (l : list adata) (s : sep) : sep := mk_sep (s_red s) (s_step s) (s_next s) (s_res s) l.

  Lemma separate_handler c ts force s l b recs s' :
    s_separate ne c ts true force s = Ok (b, recs, s') ->
    s_list s' = s_list s /\
    s_separate ne c ts false force (with_list l s) = Ok (b, [], with_list (l ++ recs) s').
  Proof.
    unfold s_separate, with_list. simpl. intros E.
    destruct (get_ts (s_step s) (s_res s) c ts) as [t| |]; cbn [bind] in *; try discriminate.
    destruct (negb force && (t <? s_next s)).
    - injection E as <- <- <-. rewrite app_nil_r. auto.
    - destruct (sep_loop _ _ _ _ _ _) as [[[rc r2] n2]| |]; cbn [bind] in *; try discriminate.
      injection E as <- <- <-. simpl. rewrite app_nil_r. auto.
  Qed.

  Lemma put_handler c1 c2 ts addf s l b recs s' :
    s_put ne c1 c2 ts true addf s = Ok (b, recs, s') ->
    s_list s' = s_list s /\
    s_put ne c1 c2 ts false addf (with_list l s) = Ok (b, [], with_list (l ++ recs) s').
  Proof.
    unfold s_put. intros E. change (s_step (with_list l s)) with (s_step s). change (s_res (with_list l s)) with (s_res s).
    destruct (get_ts (s_step s) (s_res s) c1 ts) as [t| |]; cbn [bind] in *; try discriminate.
    destruct (s_separate ne c2 t true false s) as [[[b1 rc] s1]| |] eqn:Es; cbn [bind] in *; try discriminate.
    apply (separate_handler _ _ _ _ l) in Es as [Es1 Es2]. rewrite Es2. cbn [bind].
    change (s_next (with_list (l ++ rc) s1)) with (s_next s1). change (s_step (with_list (l ++ rc) s1)) with (s_step s1).
    destruct (chk (s_next s1 - s_step s1)) as [cur| |]; cbn [bind] in *; try discriminate.
    destruct (t <? cur); injection E as <- <- <-; auto.
  Qed.

  Lemma call_handler op s l out s' : with_handler op -> s_call ne op s = Ok (out, s') ->
    s_list s' = s_list s /\
    s_call ne (without_handler op) (with_list l s) = Ok (mk_sout (out_bool out) [] None, with_list (l ++ out_handler out) s').
  Proof.
    intros HH E. destruct op; simpl in HH; try contradiction; simpl in E |- *.
    - set (q := match x with SmScalar _ _ _ => _ | _ => _ end) in E.
      destruct q as [[[b recs] s1]| |] eqn:Eq; cbn [bind] in E; try discriminate. injection E as <- <-.
      destruct x; simpl in Eq; try discriminate; apply (put_handler _ _ _ _ _ l) in Eq as [E1 E2]; split; auto;
        unfold s_add, s_add_arr, s_add_red; rewrite E2; reflexivity.
    - subst h. destruct (s_separate ne c ts true force s) as [[[b recs] s1]| |] eqn:Eq; cbn [bind] in E; try discriminate.
      injection E as <- <-. apply (separate_handler _ _ _ _ l) in Eq as [E1 E2]. split; auto. rewrite E2. reflexivity.
  Qed.

  Lemma run_handler ops : Forall with_handler ops -> forall s l outs s', s_run ne s ops = Ok (outs, s') ->
    s_list s' = s_list s /\
    exists outs', s_run ne (with_list l s) (map without_handler ops) =
                    Ok (outs', with_list (l ++ flat_map out_handler outs) s') /\
                  map out_bool outs' = map out_bool outs.
  Proof.
    induction ops as [|op ops IH]; intros HH s l outs s' E; simpl in E.
    - injection E as <- <-. split; auto. exists []. simpl. rewrite app_nil_r. auto.
    - destruct (s_call ne op s) as [[o1 s1]| |] eqn:E1; cbn [bind] in E; try discriminate.
      destruct (s_run ne s1 ops) as [[os2 s2]| |] eqn:E2; cbn [bind] in E; try discriminate.
      injection E as <- <-. destruct (call_handler op s l o1 s1 (Forall_inv HH) E1) as [A1 A2].
      destruct (IH (Forall_inv_tail HH) s1 (l ++ out_handler o1) os2 s2 E2) as (B1 & outs' & B2 & B3).
      split; [congruence|]. exists (mk_sout (out_bool o1) [] None :: outs'). cbn [map s_run]. rewrite A2. cbn [bind].
      rewrite B2. cbn [bind flat_map]. rewrite app_assoc. split; auto. simpl. congruence.
  Qed.

  Lemma with_list_same s : with_list (s_list s) s = s.
  Proof. destruct s; reflexivity. Qed.
End Handler.

(** * Order with force_pop *)
Definition le_keys (l : list group) : Prop := StronglySorted Z.le (map fst l).
Lemma le_keys_snoc l q : le_keys l -> Forall (fun p => fst p <= fst q) l -> le_keys (l ++ [q]).
Proof.
  unfold le_keys. rewrite map_app. simpl. induction l as [|p l IH]; simpl; intros H F.
  - constructor; constructor.
  - inversion H; subst. constructor.
    + apply IH; auto. exact (Forall_inv_tail F).
    + apply Forall_app. split; auto. constructor; auto. exact (Forall_inv F).
Qed.

(** Everything published lies in [lo, cur], in order. *)
Record OInv (l0 step lo : Z) (sp : spec) (hs ps : list group) : Prop := mkO {
  o_lo : lo <= sp_cur sp;
  o_cur : exists k, sp_cur sp = l0 + k * step;
  o_hs : le_keys hs; o_ps : le_keys (ps ++ sp_queue sp);
  o_in : Forall (fun q => lo <= fst q <= sp_cur sp /\ exists k, fst q = l0 + k * step) (hs ++ ps ++ sp_queue sp)
}.

Lemma Forall_weak_cur l0 step lo c c' l : c <= c' ->
  Forall (fun q : group => lo <= fst q <= c /\ exists k, fst q = l0 + k * step) l ->
  Forall (fun q : group => lo <= fst q <= c' /\ exists k, fst q = l0 + k * step) l.
Proof. intros H. apply Forall_impl. intros q (A & B). split; auto. lia. Qed.

Lemma OInv_advance l0 step lo t h sp hs ps : 0 < step -> OInv l0 step lo sp hs ps ->
  let '(out, sp1) := spec_deliver h (spec_advance step t sp) in OInv l0 step lo sp1 (hs ++ out) ps.
Proof.
  intros Hs O. assert (O' := O). destruct O' as [A (k & B) C D E].
  unfold spec_advance. destruct (Z.ltb_spec t (sp_cur sp + step)) as [L|L].
  - unfold spec_deliver. destruct h; simpl; rewrite !app_nil_r; auto. destruct sp; auto.
  - pose proof (window_of_le (sp_cur sp) step t Hs ltac:(lia)) as W.
    set (c := match sp_open sp with [] => [] | g => [(sp_cur sp, g)] end).
    assert (K : exists k, window_of (sp_cur sp) step t = l0 + k * step).
    { destruct (window_of_congr (sp_cur sp) step t) as [k2 Ek]. exists (k + k2). rewrite Ek, B. lia. }
    assert (SN : forall l, Forall (fun q => lo <= fst q <= sp_cur sp /\ exists k, fst q = l0 + k * step) l ->
       le_keys l -> le_keys (l ++ c)).
    { intros l F Sl. unfold c. destruct (sp_open sp); [now rewrite app_nil_r|]. apply le_keys_snoc; auto.
      eapply Forall_impl; [|exact F]. simpl. intros q (? & _). lia. }
    assert (FC : Forall (fun q => lo <= fst q <= sp_cur sp /\ exists k, fst q = l0 + k * step) c).
    { unfold c. destruct (sp_open sp); constructor; auto. simpl. split; [lia|eauto]. }
    apply Forall_app in E as [E1 E23]. 
    unfold spec_deliver. destruct h; fold c; simpl.
    + constructor; simpl; auto; [lia|].
      apply Forall_weak_cur with (c := sp_cur sp); [lia|]. rewrite <- app_assoc. repeat (apply Forall_app; split; auto).
      all: apply Forall_app in E23; tauto.
    + rewrite app_nil_r. constructor; simpl; auto; [lia|rewrite app_assoc; auto|].
      apply Forall_weak_cur with (c := sp_cur sp); [lia|]. apply Forall_app; split; auto.
      rewrite app_assoc. apply Forall_app; auto.
Qed.

Lemma OInv_run l0 step res lo ops : 0 < step -> Forall not_clear ops -> forall sp hs ps, OInv l0 step lo sp hs ps ->
  let '(os, sp1) := spec_run step res ops sp in
  OInv l0 step lo sp1 (hs ++ flat_map po_handler os) (ps ++ popped ops (map po_ptr os)).
Proof.
  intros Hs. induction ops as [|op ops IH]; intros HN sp hs ps O.
  - simpl. now rewrite !app_nil_r.
  - specialize (IH (Forall_inv_tail HN)). assert (H1 := Forall_inv HN).
    assert (PUT : forall t1 t2 h x, let '(so, sp1) := spec_put step t1 t2 h x sp in OInv l0 step lo sp1 (hs ++ po_handler so) ps).
    { intros. unfold spec_put. pose proof (OInv_advance l0 step lo t1 h sp hs ps Hs O) as A.
      destruct (spec_deliver h _) as [out sp1]. destruct (t2 <? sp_cur sp1); simpl; auto.
      destruct A. constructor; auto. }
    assert (STEP : let '(so, sp1) := spec_call step res op sp in
       OInv l0 step lo sp1 (hs ++ po_handler so)
         (ps ++ match op, po_ptr so with SoPop, Some a | SoForcePop, Some a => [a] | _, _ => [] end)).
    { destruct op; simpl in H1; simpl spec_call; try contradiction.
      - specialize (PUT (adv_time step res c1 c2 (sm_ts x)) (acc_time step res c1 (sm_ts x)) false (sm_op x)).
        destruct (spec_put _ _ _ _ _ _). now rewrite app_nil_r.
      - specialize (PUT (adv_time step res c1 c2 (sm_ts x)) (acc_time step res c1 (sm_ts x)) true (sm_op x)).
        destruct (spec_put _ _ _ _ _ _). now rewrite app_nil_r.
      - pose proof (OInv_advance l0 step lo (acc_time step res c ts) h sp hs ps Hs O) as A.
        destruct (spec_deliver h _) as [out sp1]. simpl. now rewrite app_nil_r.
      - destruct (sp_queue sp) as [|g q] eqn:Eq; simpl; rewrite !app_nil_r; auto.
        destruct O as [A B C D E]. rewrite Eq in *. constructor; simpl; auto; rewrite <- app_assoc; auto.
      - destruct (sp_queue sp) as [|g q] eqn:Eq; simpl; rewrite ?app_nil_r.
        + destruct O as [A B C D E]. rewrite Eq in *. destruct (sp_open sp) as [|x o]; simpl; rewrite ?app_nil_r in *.
          * constructor; simpl; rewrite ?app_nil_r; auto.
          * constructor; simpl; rewrite ?app_nil_r; auto.
            -- apply le_keys_snoc; auto. apply Forall_app in E as [_ E]. eapply Forall_impl; [|exact E].
               simpl. intros q (? & _). lia.
            -- rewrite app_assoc. apply Forall_app. split; auto. constructor; auto. simpl. split; [lia|auto].
        + destruct O as [A B C D E]. rewrite Eq in *. constructor; simpl; auto; rewrite <- app_assoc; auto.
      - simpl. now rewrite !app_nil_r. }
    simpl spec_run. destruct (spec_call step res op sp) as [so sp1]. specialize (IH _ _ _ STEP).
    destruct (spec_run step res ops sp1) as [os sp2]. simpl. rewrite !app_assoc. exact IH.
Qed.

Section Order.
  Variable ne : nat -> list Z -> list Z.
  Hypothesis Hne : nth_element_ok ne.

  Lemma order_run so c rnd ts ops1 ops2 s0 outs1 s1 outs2 s2 : 0 < so_step so -> sep_new so c rnd ts = Ok s0 ->
    Forall sop_typed ops1 -> Forall sop_typed ops2 -> Forall not_clear ops2 ->
    s_run ne s0 ops1 = Ok (outs1, s1) -> s_run ne s1 ops2 = Ok (outs2, s2) -> s_list s1 = [] ->
    let recs := flat_map out_handler outs2 ++ popped ops2 (map out_ptr outs2) ++ s_list s2 in
    StronglySorted Z.le (map ad_ts (flat_map out_handler outs2)) /\
    StronglySorted Z.le (map ad_ts (popped ops2 (map out_ptr outs2) ++ s_list s2)) /\
    (forall a, In a recs -> sep_label s1 <= ad_ts a <= sep_label s2 /\ exists k, ad_ts a = sep_label s1 + k * so_step so).
  Proof.
    intros Hs E0 HT1 HT2 HN E1 E2 HQ. cbv zeta.
    destruct (new_sim ne so c rnd ts s0 Hs E0) as (SI & _ & _ & _).
    pose proof (run_sim ne Hne (so_red so) (so_step so) (so_res so) ops1 Hs HT1 s0 _ outs1 s1 SI E1) as R1.
    destruct (spec_run (so_step so) (so_res so) ops1 _) as [os1 sp1]. destruct R1 as (SI1 & _).
    pose proof (run_sim ne Hne (so_red so) (so_step so) (so_res so) ops2 Hs HT2 s1 _ outs2 s2 SI1 E2) as R2.
    assert (L1 : sep_label s1 = sp_cur sp1).
    { destruct SI1 as (A & _ & B & _). unfold sep_label. lia. }
    assert (Q1 : sp_queue sp1 = []).
    { destruct SI1 as (_ & _ & _ & _ & _ & F). rewrite HQ in F. now inversion F. }
    pose proof (OInv_run (sp_cur sp1) (so_step so) (so_res so) (sp_cur sp1) ops2 Hs HN sp1 [] []) as O.
    destruct (spec_run (so_step so) (so_res so) ops2 sp1) as [os2 sp2].
    destruct R2 as (SI2 & _ & F1 & F2).
    assert (L2 : sep_label s2 = sp_cur sp2).
    { destruct SI2 as (A & _ & B & _). unfold sep_label. lia. }
    destruct O as [A B C D E].
    { constructor; rewrite ?Q1; try constructor; try lia. exists 0. lia. }
    simpl in C, D, E. destruct SI2 as (_ & _ & _ & _ & _ & F3).
    split; [rewrite (rel_ts _ _ _ _ F1); exact C|].
    split; [rewrite (rel_ts ne _ _ _ (Forall2_app F2 F3)); exact D|].
    assert (F := Forall2_app3 _ _ _ _ _ _ _ F1 F2 F3). apply rel_ts in F.
    intros a Ha. rewrite L1, L2. apply (in_map ad_ts) in Ha. rewrite F in Ha.
    apply in_map_iff in Ha as (q & Eq & Hq). rewrite <- Eq. rewrite Forall_forall in E. apply E. exact Hq.
  Qed.
End Order.

(** * Statements used in PropsSeparator *)
Section Final.
  Variable ne : nat -> list Z -> list Z.
  Hypothesis Hne : nth_element_ok ne.

  Lemma window_of_char l0 step t w : 0 < step ->
    (window_of l0 step t = w <-> w <= t < w + step /\ exists k, w = l0 + k * step).
  Proof.
    intros Hs. split.
    - intros <-. split; [now apply window_of_spec|apply window_of_congr].
    - intros (H & k & ->). rewrite <- (window_of_shift l0 k) by auto. now apply window_of_fix.
  Qed.

  Lemma grouping so ops s0 outs s :
    0 < so_step so -> idle ne so s0 ->
    Forall sop_typed ops -> Forall regular ops -> Forall (coherent (so_step so) (so_res so)) ops ->
    s_run ne s0 ops = Ok (outs, s) ->
    let l0 := sep_label s0 in
    let acc := accepted (so_step so) (so_res so) ops (map out_bool outs) in
    exists closed recs,
      StronglySorted Z.lt (map fst closed) /\
      (forall w g, In (w, g) closed <-> g = ops_in l0 (so_step so) w acc /\ g <> [] /\ w < sep_label s) /\
      Forall2 (fun q a => record_of ne (so_red so) (fst q) (snd q) a) closed recs /\
      Permutation recs (flat_map out_handler outs ++ popped ops (map out_ptr outs) ++ s_list s).
  Proof. intros. edestruct (group_run ne Hne so ops s0 outs s) as (_ & _ & _ & _ & H'); eauto. Qed.

  Lemma grouping_open so ops s0 outs s p :
    0 < so_step so -> idle ne so s0 ->
    Forall sop_typed ops -> Forall regular ops -> Forall (coherent (so_step so) (so_res so)) ops ->
    s_run ne s0 ops = Ok (outs, s) -> s_get_current ne s = Ok p ->
    let g := ops_in (sep_label s0) (so_step so) (sep_label s)
               (accepted (so_step so) (so_res so) ops (map out_bool outs)) in
    match p with
    | None => g = []
    | Some a => g <> [] /\ ad_ts a = sep_label s /\ exists b, record_of ne (so_red so) (sep_label s) g b /\ same_summary a b
    end.
  Proof.
    intros. edestruct (group_run ne Hne so ops s0 outs s) as (_ & R & _); eauto.
    eapply (open_peek ne Hne); eauto.
  Qed.

  Lemma grouping_order so ops s0 outs s :
    0 < so_step so -> idle ne so s0 ->
    Forall sop_typed ops -> Forall regular ops -> Forall (coherent (so_step so) (so_res so)) ops ->
    s_run ne s0 ops = Ok (outs, s) ->
    StronglySorted Z.lt (map ad_ts (flat_map out_handler outs)) /\
    StronglySorted Z.lt (map ad_ts (popped ops (map out_ptr outs) ++ s_list s)).
  Proof. intros. edestruct (group_run ne Hne so ops s0 outs s) as (_ & _ & A & B & _); eauto. Qed.

  Lemma fold_max_is_max l : forall a, is_max (fold_left Z.max l a) (a :: l).
  Proof.
    induction l as [|x l IH]; intros a; simpl.
    - split; [now left|]. constructor; auto. lia.
    - destruct (IH (Z.max a x)) as [I F]. split.
      + destruct I as [I|I]; [|now right; right]. rewrite <- I.
        destruct (Z.max_spec a x) as [[_ ->]|[_ ->]]; [now right; left|now left].
      + inversion F as [|? ? F1 F2]; subst. constructor; [lia|]. constructor; [lia|auto].
  Qed.

  Lemma grouping_cur so ops s0 outs s :
    0 < so_step so -> idle ne so s0 ->
    Forall sop_typed ops -> Forall regular ops -> Forall (coherent (so_step so) (so_res so)) ops ->
    s_run ne s0 ops = Ok (outs, s) ->
    is_max (sep_label s) (sep_label s0 ::
      map (window_of (sep_label s0) (so_step so)) (flat_map (shown_time (so_step so) (so_res so)) ops)).
  Proof.
    intros. edestruct (group_run ne Hne so ops s0 outs s) as (-> & _); eauto. apply fold_max_is_max.
  Qed.

  Lemma step_negative o ops r step ts next fuel : Forall op_typed ops -> r_run ne (reducer_new o) ops = Ok r ->
    step < 0 -> i64 next -> next <= ts ->
    (forall p, sep_loop ne fuel step ts next r <> Ok p) /\
    sep_loop ne (sep_fuel step ts next) step ts next r = Ub.
  Proof.
    intros. split.
    - intros p. now apply sep_loop_negative.
    - eapply (sep_loop_negative_ub ne Hne) with (o := o); eauto. exists ops. auto.
  Qed.
End Final.

Lemma fuel_independent ne step ts next r fuel : step <> 0 -> i64 next -> (sep_fuel step ts next <= fuel)%nat ->
  sep_loop ne fuel step ts next r = sep_loop ne (sep_fuel step ts next) step ts next r.
Proof. intros. pose proof (sep_fuel_enough step ts next). apply sep_loop_fuel; auto; lia. Qed.

Lemma step_zero ne op s : s_step s = 0 ->
  match op with SoAdd _ _ _ | SoSeparate _ _ _ _ | SoClear _ _ => s_call ne op s = Ub | _ => True end.
Proof.
  intros H. destruct op as [x c1 c2| | | | | |]; auto; simpl.
  - destruct x; unfold s_add, s_add_arr, s_add_list, s_add_red, s_put, get_ts; rewrite H; reflexivity.
  - unfold s_separate, get_ts. rewrite H. reflexivity.
  - unfold s_clear, get_ts. rewrite H. reflexivity.
Qed.

Lemma handler_queue ne ops s outs s' : Forall with_handler ops -> s_run ne s ops = Ok (outs, s') ->
  s_list s' = s_list s /\
  exists outs', s_run ne s (map without_handler ops) =
                  Ok (outs', mk_sep (s_red s') (s_step s') (s_next s') (s_res s') (s_list s ++ flat_map out_handler outs)) /\
                map out_bool outs' = map out_bool outs.
Proof.
  intros H E. pose proof (run_handler ne ops H s (s_list s) outs s' E) as R. rewrite with_list_same in R. exact R.
Qed.
