(** Property C67: the published average (wrtstat/aggregator/reducer.cpp:174-190, 270-273). *)
From Coq Require Import ZArith List Bool Lia.
From Verif Require Import Base SortFacts ModelTypes ModelReducer SpecReducer PubProofs AvgError PropsReducer.
Import ListNotations.
Local Open Scope Z_scope.

(** C67 *)
(** With n values of magnitude at most M, the published average differs from their mean by at most
    1 + M (n + 21) / 2^54.  (Multiplied by 2^54 n.) *)
Theorem C67_average_error : forall ne, nth_element_ok ne -> forall o ops a M,
  Forall op_typed ops -> publishes ne o ops a ->
  values (window ops) <> [] -> Z.of_nat (length (values (window ops))) <= 2 ^ 53 ->
  1 <= M -> Forall (fun v => - M <= v <= M) (values (window ops)) ->
  let n := Z.of_nat (length (values (window ops))) in
  let sum := fold_right Z.add 0 (values (window ops)) in
  2 ^ 54 * Z.abs (n * ad_avg a - sum) <= n * (2 ^ 54 + M * (n + 21)).
Proof. exact pub_avg_error. Qed.
Print Assumptions C67_average_error.

(** So it is off by at most 2 while M (n + 21) stays below 2^54: for example a million values up to 1.8 * 10^10. *)
Theorem C67_average_near : forall ne, nth_element_ok ne -> forall o ops a M,
  Forall op_typed ops -> publishes ne o ops a ->
  values (window ops) <> [] ->
  1 <= M -> Forall (fun v => - M <= v <= M) (values (window ops)) ->
  let n := Z.of_nat (length (values (window ops))) in
  let sum := fold_right Z.add 0 (values (window ops)) in
  M * (n + 21) <= 2 ^ 54 -> sum - 2 * n <= n * ad_avg a <= sum + 2 * n.
Proof.
  intros ne NE o ops a M HT P Hv HM HF n sum HN. assert (NP : 0 <= n) by (unfold n; lia).
  destruct (Z.le_gt_cases n (2 ^ 53)) as [L|L].
  - pose proof (pub_avg_error ne NE o ops a M HT P Hv L HM HF) as E. cbv zeta in E. fold n sum in E. nia.
  - assert (M < 2) by nia. assert (M = 1) by lia. subst M.
    destruct (Z.le_gt_cases two64 n) as [X|X]; [unfold two64 in X; lia|].
    assert (B : -1 <= ad_avg a <= 1) by (apply (pub_avg ne NE o ops a); auto; lia).
    assert (S : - n <= sum <= n).
    { unfold n, sum. clear - HF. induction (values (window ops)) as [|v vs IH]; simpl; [lia|].
      pose proof (Forall_inv HF) as H. cbv beta in H. specialize (IH (Forall_inv_tail HF)). lia. }
    nia.
Qed.
Print Assumptions C67_average_near.

Example C67_witness : exists a, publishes ne_rev ex_o [OpAdd 1000000007 5; OpAddVec [2; - 1000000007; 12]] a /\
  ad_avg a = 3 /\ 1000000007 * (4 + 21) <= 2 ^ 54.
Proof. eexists. split; [pub|]. split; [reflexivity|]. vm_compute. discriminate. Qed.

(** Not exact, even for small numbers: the mean of 0, 1, 6, 1 is 2, the published average is 1. *)
Theorem C67_exact_refuted : exists a, publishes ne_rev ex_o [OpAddVec [0; 1; 6; 1]] a /\ ad_avg a = 1 /\ 0 + 1 + 6 + 1 = 4 * 2.
Proof. eexists. split; [pub|]. split; reflexivity. Qed.
Print Assumptions C67_exact_refuted.
