(** C71: no program faults whose times, values and number of names stay in range. *)
From Coq Require Import ZArith List Bool Permutation Lia Arith Ascii.
From Verif Require Import Base SortFacts ModelTypes ModelReducer SpecReducer ModelSeparator SpecSeparator ModelAggregator SpecAggregator
  ModelRegistry SpecRegistry ModelComposite ModelMeters ModelSystem SpecSystem SystemFinal RegProofs RegFinal SpecTotal RegTotal
  PropsReducer PropsSeparator PropsAggregator PropsRegistry PropsSystem.
Import ListNotations.
Local Open Scope Z_scope.

(** The registry alone: every sequence of calls, with any ids, live or not, any names, any pushers. *)
Theorem C71_registry_total : forall ne, nth_element_ok ne -> forall o ops, 0 < so_step (ao_sep (rgo_agg o)) <= i64_max ->
  fits o (list_sum (map rg_ids ops)) -> Forall (rgop_safe (rgo_agg o)) ops -> Z.of_nat (list_sum (map rg_volume ops)) < two64 ->
  exists outs r, rg_run ne (rg_new o) ops = Ok (outs, r).
Proof.
  intros ne Hne o ops Hs F HS HK. apply (rg_run_total ne Hne o _ F Hs ops 0 0); auto. split; [apply RInv_new|]. intros [|pos] s g E; discriminate E.
Qed.
Print Assumptions C71_registry_total.

(** Whole programs, with a handler: from construction through destruction, points going on after it. *)
Theorem C71_program_total : forall ne, nth_element_ok ne -> forall o ops, 0 < so_step (ao_sep (rgo_agg o)) <= i64_max ->
  fits o (list_sum (map y_ids ops)) -> all_safe (rgo_agg o) ne (y_new o true) ops -> Z.of_nat (list_sum (map y_volume ops)) < two64 ->
  exists log s, y_run ne (y_new o true) ops = Ok (log, s).
Proof.
  intros ne Hne o ops Hs F HS HK. apply (y_run_total ne Hne o _ F Hs ops 0 0); auto. destruct (new_inv o true) as [W O].
  split; [reflexivity|]. split; auto. split; auto. intros _. split; [apply RInv_new|]. intros [|pos] s g E; discriminate E.
Qed.
Print Assumptions C71_program_total.

(** Non-trivial: the program of C68 with destruction and points going on after it. *)
Definition tx_ops : list yop := yx_more ++ [YDestroy (fun _ => 116)] ++ yx_after.
Lemma all_safe_cons o ne s op t e s1 : y_safe o s op -> y_do ne op s = Ok (e, s1) -> all_safe o ne s1 t -> all_safe o ne s (op :: t).
Proof. intros A B C. split; auto. intros e' s' E. rewrite B in E. injection E as _ <-. exact C. Qed.
Ltac ranges := repeat match goal with
  | |- True => exact I
  | |- _ /\ _ => split
  | |- forall x : role, _ => intros [| |]
  | |- forall x : name, _ => intros ?
  | |- Forall _ _ => constructor
  | |- _ = 0 \/ _ => left; reflexivity
  | |- _ = true => reflexivity
  | |- call_safe _ _ => split
  | |- report_safe _ _ _ => cbn [report_safe]
  | |- ?P => progress (cbv beta iota zeta delta [rgop_safe env_safe gop_typed gop_safe op_safe op_typed time_ok val_safe i64 is_u64]; cbn - [i64_min i64_max two64 Z.pow])
  end; try solve [vm_compute; congruence | vm_compute; split; congruence].
Ltac safe_step := eapply all_safe_cons;
  [cbv beta iota delta [y_safe]; try match goal with |- Forall _ ?l => let v := eval vm_compute in l in change l with v end; ranges | vm_compute; reflexivity |].
Example C71_program_witness : all_safe (rgo_agg yx_o) ne_rev (y_new yx_o true) tx_ops /\ fits yx_o (list_sum (map y_ids tx_ops)) /\
  Z.of_nat (list_sum (map y_volume tx_ops)) < two64 /\ 0 < so_step (ao_sep (rgo_agg yx_o)) <= i64_max /\ length tx_ops = 22%nat.
Proof.
  split; [|split; [unfold fits; vm_compute; repeat split; congruence|split; [reflexivity|split; [vm_compute; split; congruence|reflexivity]]]].
  unfold tx_ops, yx_more, yx_ops, yx_after. cbn [app].
  do 22 safe_step. exact I.
Qed.

Definition tx_i : rgopts := mk_rgopts gx_o 3 5 true.
Definition tx_e : cenv := mk_cenv 0 0 0 0 (Some (mk_rdata (mk_rinfo 108 3 0 1 4 2) [1; 4])) 0.
Definition tx_rops : list rgop := rx_ops ++ [RgCreate tx_e nc 108; RgDel na; RgDel nc; RgCreate tx_e nc 109; RgPusherName rx_e na true 110; RgGetName 77; RgPopAll true (fun _ => 120)].
Example C71_registry_witness : Forall (rgop_safe (rgo_agg tx_i)) tx_rops /\ fits tx_i (list_sum (map rg_ids tx_rops)) /\
  Z.of_nat (list_sum (map rg_volume tx_rops)) < two64 /\ 0 < so_step (ao_sep (rgo_agg tx_i)) <= i64_max /\
  list_sum (map rg_ids tx_rops) = 7%nat /\ list_sum (map rg_volume tx_rops) = 8%nat.
Proof.
  split; [|split; [unfold fits; vm_compute; repeat split; congruence|split; [reflexivity|split; [vm_compute; split; congruence|split; reflexivity]]]].
  unfold tx_rops, rx_ops. cbn [app]. repeat (apply Forall_cons; [ranges|]). constructor.
Qed.

(** The bounds matter: a fault follows from a value next to 2^63, from a time next to 2^63, without a handler, from an id step of 0, and from
    using wrtstat after its destruction. *)
Definition tx_big (v t : Z) : list yop := [YMeterName rx_e na 101; YReg (RgCall 1 (GoAdd (SmScalar t v 1) 0 0)); YPushout true (fun _ => t)].
Theorem C71_bounds_needed :
  (exists log s, y_run ne_rev (y_new yx_o true) (tx_big 5 103) = Ok (log, s)) /\
  y_run ne_rev (y_new yx_o true) (tx_big (i64_max - 1) 103) = Ub /\
  y_run ne_rev (y_new yx_o true) [YMeterName rx_e na (i64_max - 3)] = Ub /\
  y_run ne_rev (y_new yx_o false) (tx_big 5 103) = Exn /\
  y_run ne_rev (y_new (mk_rgopts gx_o 0 0 false) true) (tx_big 5 103) = Ub /\
  y_run ne_rev (y_new yx_o true) [YDestroy (fun _ => 103); YMeterId 1] = Ub.
Proof. split; [do 2 eexists; vm_compute; reflexivity|]. vm_compute. repeat split; reflexivity. Qed.
Print Assumptions C71_bounds_needed.
