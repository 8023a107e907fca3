(** C72: how long a call takes after a silence. *)
From Coq Require Import ZArith List Bool Lia Arith.
From Verif Require Import Base ModelTypes ModelAvg ModelReducer SpecReducer ModelSeparator SpecSeparator SepProofs SepSafe SpecRounds SortFacts PropsReducer PropsSeparator.
Import ListNotations.
Local Open Scope Z_scope.

Section Rounds.
  Variable ne : nat -> list Z -> list Z.
  Lemma loop_rounds step ts : forall fuel next r recs r2 next2, sep_loop ne fuel step ts next r = Ok (recs, r2, next2) ->
    exists n, rounds ne step ts next r n recs next2 r2.
  Proof.
    induction fuel as [|fuel IH]; intros next r recs r2 next2 E; simpl in E.
    - destruct (Z.leb_spec next ts); [discriminate|]. injection E as <- <- <-. exists 0%nat. now constructor.
    - destruct (Z.leb_spec next ts); [|injection E as <- <- <-; exists 0%nat; now constructor].
      destruct (r_detach ne r) as [[[x|] r1]| |] eqn:ED; cbn [bind] in E; try discriminate.
      + destruct (chk (next - step)) as [w| |] eqn:EW; cbn [bind] in E; try discriminate. apply chk_ok in EW as [-> _].
        destruct (chk (next + step)) as [w| |] eqn:EW; cbn [bind] in E; try discriminate. apply chk_ok in EW as [-> _].
        destruct (sep_loop ne fuel step ts (next + step) r1) as [[[rc r3] n3]| |] eqn:EL; cbn [bind] in E; try discriminate. injection E as <- <- <-.
        destruct (IH _ _ _ _ _ EL) as (n & R). exists (S n). eapply rounds_some; eauto.
      + destruct (chk (next + step)) as [w| |] eqn:EW; cbn [bind] in E; try discriminate. apply chk_ok in EW as [-> _].
        destruct (sep_loop ne fuel step ts (next + step) r1) as [[[rc r3] n3]| |] eqn:EL; cbn [bind] in E; try discriminate. injection E as <- <- <-.
        destruct (IH _ _ _ _ _ EL) as (n & R). exists (S n). eapply rounds_none; eauto.
  Qed.
  Lemma elapsed_step step next t : 0 < step -> next <= t -> elapsed step next t = elapsed step (next + step) t + 1.
  Proof.
    intros Hs L. unfold elapsed. rewrite (proj2 (Z.ltb_ge t next)) by lia. f_equal. destruct (Z.ltb_spec t (next + step)).
    - apply Z.div_small. lia.
    - replace (t - next) with (t - (next + step) + 1 * step) by lia. rewrite Z.div_add by lia. reflexivity.
  Qed.
  Lemma rounds_count step ts next r n recs next' r' : 0 < step -> rounds ne step ts next r n recs next' r' -> Z.of_nat n = elapsed step next ts.
  Proof.
    intros Hs. induction 1; [unfold elapsed; now rewrite (proj2 (Z.ltb_lt _ _)) by lia| |]; rewrite elapsed_step by auto; lia.
  Qed.
End Rounds.

(** Closing windows up to a time makes one round for each window that has ended by then, empty or not. *)
Theorem C72_rounds : forall ne s c ts h force b recs s', 0 < s_step s -> s_separate ne c ts h force s = Ok (b, recs, s') ->
  let t := acc_time (s_step s) (s_res s) c ts in
  exists n out, rounds ne (s_step s) t (s_next s) (s_red s) n out (s_next s') (s_red s') /\ Z.of_nat n = elapsed (s_step s) (s_next s) t /\
    recs = (if h then out else []) /\ s_list s' = s_list s ++ (if h then [] else out).
Proof.
  intros ne s c ts h force b recs s' Hs E t. unfold s_separate in E. destruct (get_ts _ _ c ts) as [t'| |] eqn:ET; cbn [bind] in E; try discriminate.
  destruct (get_ts_ok _ _ _ _ _ Hs ET) as [-> _]. fold t in E. destruct (negb force && (t <? s_next s)) eqn:EF.
  - injection E as _ <- <-. apply andb_prop in EF as [_ EF]. apply Z.ltb_lt in EF. exists 0%nat, []. split; [now constructor|].
    split; [unfold elapsed; now rewrite (proj2 (Z.ltb_lt _ _))|]. destruct h; rewrite app_nil_r; auto.
  - destruct (sep_loop _ _ _ _ _ _) as [[[rc r2] n2]| |] eqn:EL; cbn [bind] in E; try discriminate. injection E as _ <- <-. cbn [s_next s_red s_list].
    destruct (loop_rounds _ _ _ _ _ _ _ _ _ EL) as (n & R). exists n, rc. split; auto. split; [eapply rounds_count; eauto|]. auto.
Qed.
Print Assumptions C72_rounds.

(** The same for every add and push: they differ in [addf], what is recorded in the end. *)
Theorem C72_push_rounds : forall ne s c1 c2 ts h addf b recs s', 0 < s_step s -> s_put ne c1 c2 ts h addf s = Ok (b, recs, s') ->
  let t := adv_time (s_step s) (s_res s) c1 c2 ts in
  exists n out r, rounds ne (s_step s) t (s_next s) (s_red s) n out (s_next s') r /\ Z.of_nat n = elapsed (s_step s) (s_next s) t /\
    s_red s' = (if b then addf r else r) /\ recs = (if h then out else []) /\ s_list s' = s_list s ++ (if h then [] else out).
Proof.
  intros ne s c1 c2 ts h addf b recs s' Hs E t. unfold s_put in E. destruct (get_ts _ _ c1 ts) as [t'| |] eqn:ET; cbn [bind] in E; try discriminate.
  destruct (get_ts_ok _ _ _ _ _ Hs ET) as [-> _]. destruct (s_separate _ _ _ _ _ _) as [[[b1 rc] s1]| |] eqn:E1; cbn [bind] in E; try discriminate.
  destruct (C72_rounds _ _ _ _ _ _ _ _ _ Hs E1) as (n & out & R & EN & EO & EL). destruct (chk _) as [cur| |]; cbn [bind] in E; try discriminate.
  exists n, out, (s_red s1). destruct (_ <? cur); injection E as <- <- <-; auto.
Qed.
Print Assumptions C72_push_rounds.

(** So the time a push takes is not bounded by its arguments and the contents: one sample, a silence of [B] windows of ten, one sample.  One
    record comes out. *)
Definition qx_s1 : sep := match s_add ne_rev 0 0 103 7 1 sx_s0 with Ok (_, _, s) => s | _ => sx_s0 end.
Example qx_added : s_add ne_rev 0 0 103 7 1 sx_s0 = Ok (true, [], qx_s1) /\ s_next qx_s1 = 110. Proof. vm_compute. auto. Qed.
Lemma empty_total ne step ts : 0 < step -> ts <= i64_max - step -> forall fuel next r, r_empty r = true -> i64_min <= next ->
  elapsed step next ts <= Z.of_nat fuel -> exists p, sep_loop ne fuel step ts next r = Ok p.
Proof.
  intros Hs Ht. induction fuel as [|fuel IH]; intros next r HR HN HF; simpl.
  - destruct (Z.leb_spec next ts); [|eauto]. unfold elapsed in HF. rewrite (proj2 (Z.ltb_ge ts next)) in HF by lia.
    pose proof (Z.div_pos (ts - next) step). lia.
  - destruct (Z.leb_spec next ts) as [L|L]; [|eauto]. unfold r_detach. rewrite HR. cbn [bind].
    rewrite chk_i64 by (unfold i64; lia). cbn [bind]. rewrite (elapsed_step step next ts) in HF by auto.
    destruct (IH (next + step) r HR) as ([[rc r2] n2] & ->); [lia|lia|]. cbn [bind]. eauto.
Qed.
Theorem C72_bounded_refuted : forall B, Z.of_nat B < 2 ^ 58 -> exists rec s2 r,
  s_push ne_rev 0 0 (110 + 10 * Z.of_nat B) 9 1 true qx_s1 = Ok (true, [rec], s2) /\
  rounds ne_rev 10 (110 + 10 * Z.of_nat B) 110 (s_red qx_s1) (S B) [rec] (120 + 10 * Z.of_nat B) r.
Proof.
  intros B HB. set (t := 110 + 10 * Z.of_nat B). assert (Ht : 110 <= t <= i64_max - 20) by (unfold i64_max, t; lia).
  assert (GT : get_ts 10 RSeconds 0 t = Ok t).
  { rewrite get_ts_spec; [|lia|]; unfold acc_time, given_time; rewrite (proj2 (Z.eqb_neq t 0)) by lia; cbn [negb orb]; [|unfold i64, i64_min; lia].
    f_equal. unfold truncated, t. replace (110 + 10 * Z.of_nat B) with ((11 + Z.of_nat B) * 10) by lia. rewrite Z.quot_mul by lia. reflexivity. }
  assert (DET : exists x r1, r_detach ne_rev (s_red qx_s1) = Ok (Some x, r1) /\ r_empty r1 = true) by (do 2 eexists; split; vm_compute; reflexivity).
  destruct DET as (x & r1 & ED & ER).
  assert (EX : exists rec s2, s_push ne_rev 0 0 t 9 1 true qx_s1 = Ok (true, [rec], s2)).
  { unfold s_push, s_put, s_separate. change (s_step qx_s1) with 10. change (s_res qx_s1) with RSeconds. change (s_next qx_s1) with 110.
    rewrite GT. cbn [bind]. rewrite GT. cbn [bind negb andb]. rewrite (proj2 (Z.ltb_ge t 110)) by lia.
    assert (EF : exists f, sep_fuel 10 t 110 = S f /\ Z.of_nat f = elapsed 10 120 t).
    { unfold sep_fuel, t. cbn [Z.ltb Z.compare]. replace (110 + 10 * Z.of_nat B - 110) with (Z.of_nat B * 10) by lia. rewrite Z.div_mul by lia.
      exists B. split; [lia|]. unfold elapsed. destruct (Z.ltb_spec (110 + 10 * Z.of_nat B) 120); [lia|].
      replace (110 + 10 * Z.of_nat B - 120) with ((Z.of_nat B - 1) * 10) by lia. rewrite Z.div_mul by lia. lia. }
    destruct EF as (f & -> & EF). cbn [sep_loop]. rewrite (proj2 (Z.leb_le 110 t)) by lia. rewrite ED. cbn [bind].
    change (chk (110 - 10)) with (Ok 100). change (chk (110 + 10)) with (Ok 120). cbn [bind].
    destruct (empty_total ne_rev 10 t ltac:(lia) ltac:(lia) f 120 r1 ER ltac:(unfold i64_min; lia) ltac:(lia)) as (p & EP). rewrite EP.
    apply sep_loop_empty in EP; [|lia|auto]. subst p. cbn [bind s_next s_step app].
    assert (WN : (if 120 <=? t then window_of (120 - 10) 10 t + 10 else 120) = t + 10).
    { unfold window_of, t. destruct (Z.leb_spec 120 (110 + 10 * Z.of_nat B)); [|lia].
      replace (110 + 10 * Z.of_nat B - (120 - 10)) with (Z.of_nat B * 10) by lia. rewrite Z.div_mul by lia. lia. }
    rewrite WN. rewrite chk_i64 by (unfold i64, i64_min; lia). cbn [bind]. rewrite (proj2 (Z.ltb_ge t (t + 10 - 10))) by lia. do 2 eexists. reflexivity. }
  destruct EX as (rec & s2 & EX). pose proof EX as EP. unfold s_push in EP. apply C72_push_rounds in EP; [|reflexivity]. cbv zeta in EP.
  change (s_step qx_s1) with 10 in EP. change (s_res qx_s1) with RSeconds in EP. change (s_next qx_s1) with 110 in EP.
  assert (AT : adv_time 10 RSeconds 0 0 t = t).
  { destruct (get_ts_ok 10 RSeconds 0 t t ltac:(lia) GT) as [A _]. unfold adv_time. rewrite <- A. exact (eq_sym A). }
  rewrite AT in EP. destruct EP as (n & out & r & R & EN & _ & EO & _). subst out. exists rec, s2, r. split; auto.
  assert (EL : elapsed 10 110 t = Z.of_nat (S B)).
  { unfold elapsed, t. destruct (Z.ltb_spec (110 + 10 * Z.of_nat B) 110); [lia|]. replace (110 + 10 * Z.of_nat B - 110) with (Z.of_nat B * 10) by lia.
    rewrite Z.div_mul by lia. lia. }
  assert (n = S B) as -> by lia.
  assert (s_next s2 = 120 + 10 * Z.of_nat B) as <-; [|exact R].
  clear -R Ht EL. assert (G : forall next r0 m l n2 r2, rounds ne_rev 10 t next r0 m l n2 r2 -> n2 = next + 10 * Z.of_nat m).
  { induction 1; lia. }
  rewrite (G _ _ _ _ _ _ R). unfold t. lia.
Qed.
Print Assumptions C72_bounded_refuted.
(** Eight rounds for eight windows; and for a microsecond clock, windows of a second and an aggregator made for the time 1, a push 2^50 us
    (36 years) later makes more than 10^9 rounds. *)
Example C72_witness : (exists rec s2, s_separate ne_rev 0 185 true false qx_s1 = Ok (true, [rec], s2) /\ s_next s2 = 190) /\
  acc_time 10 RSeconds 0 185 = 180 /\ elapsed 10 110 180 = 8 /\ elapsed 10 110 109 = 0 /\ elapsed 1000000 1000000 (2 ^ 50) = 1125899906.
Proof. split; [do 2 eexists; split; vm_compute; reflexivity|]. vm_compute. auto. Qed.
