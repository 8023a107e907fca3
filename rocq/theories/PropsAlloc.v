(** C90: a reducer when memory runs out. *)
From Coq Require Import ZArith List Bool Permutation Lia.
From Verif Require Import Base SortFacts ModelTypes ModelAvg ModelReducer SpecReducer ReducerProofs PubProofs ModelAlloc SpecAlloc AllocProofs.
Import ListNotations.
Local Open Scope Z_scope.

(** Every allocation in an add(), in get_reduced() or at the start of detach() may fail, as often as it likes: every call returns or throws,
    none is undefined, and a last detach() is defined too. *)
Theorem C90_defined : forall ne, nth_element_ok ne -> forall o ops,
  Forall (fun q => op_typed (fst q)) ops -> Forall not_at_free ops -> Forall op_safe (map fst ops) ->
  Z.of_nat (length (values (map fst ops))) < two64 ->
  exists es r, f_run ne (Sound (reducer_new o)) ops = Ok (es, Sound r) /\ length es = length ops /\
    exists d s, f_call ne OpDetach None (Sound r) = Ok (FRet d, s) /\ (d = None <-> a_seen (account_of ops es) = false).
Proof.
  intros ne Hne o ops HT HF HO HL.
  destruct (run_ok_f ne Hne o ops HT HF HO account0 _ (FI_new o)) as (es & r & E & I & S & L); [constructor|exact HL|].
  exists es, r. split; [exact E|]. split; [exact (f_run_length _ _ _ _ _ E)|].
  destruct (avg_cast_safe _ S L) as [z Ez]. pose proof (detach_account ne Hne o _ _ I) as D. rewrite Ez in D.
  destruct D as (d & r' & Ed & D). cbn [f_call f_sound f_plain]. rewrite Ed. cbn [bind]. exists d, (Sound r'). split; [reflexivity|].
  unfold account_of. destruct (a_seen _).
  - destruct D as (_ & x & -> & _). split; discriminate.
  - destruct D as (-> & _). split; auto.
Qed.
Print Assumptions C90_defined.

(** The record such a history gives: the count is that of the calls that returned; the values are among those tried; minimum, maximum and
    average are those of all the values tried, the refused ones included - the average is the one of any reducer that got these values;
    count, lossy and size differ by the values stored by array calls that then threw. *)
Theorem C90_record : forall ne, nth_element_ok ne -> forall o ops ac a,
  Forall (fun q => op_typed (fst q)) ops -> Forall not_at_free ops -> f_publishes ne o ops ac a ->
  ad_count a = u64 (a_declared ac) /\
  submultiset (ad_data a) (a_tried ac) /\ (length (ad_data a) <= o_limit o)%nat /\
  u64 (ad_lossy a + Z.of_nat (length (ad_data a))) = u64 (a_declared ac + a_extra ac) /\
  (a_extremes ac <> [] -> is_min (ad_min a) (a_extremes ac) /\ is_max (ad_max a) (a_extremes ac)) /\
  (forall o' ops' b, Forall op_typed ops' -> publishes ne o' ops' b -> values (window ops') = a_tried ac -> ad_avg a = ad_avg b).
Proof.
  intros ne Hne o ops ac a HT HF P. destruct (published_as ne Hne o ops ac a HT HF P) as (H1 & H2 & H3 & H4 & H5 & H6 & H7 & H8).
  split; [exact H1|]. split; [exact H5|]. split; [exact H6|]. split; [exact H8|]. split.
  - intros N. assert (HI : Forall i64 (a_extremes ac)).
    { destruct P as (es & s & s' & _ & -> & _). apply extremes_typed; [exact HT|constructor]. }
    rewrite H2, H3. split; [now apply fold_min_is|now apply fold_max_is].
  - intros o' ops' b HT' P' V. destruct (pub_inv ne Hne o' ops' b HT' P') as ((_ & _ & _ & _ & _ & _ & _ & Av & _) & _).
    rewrite V in Av. congruence.
Qed.
Print Assumptions C90_record.

(** A call that threw when it had stored nothing yet - one value, or the first of several - leaves count, lossy and size in balance,
    as C02 says of an ordinary reducer. *)
Theorem C90_balance : forall ne, nth_element_ok ne -> forall o ops ac a,
  Forall (fun q => op_typed (fst q)) ops -> Forall not_at_free ops -> Forall op_honest (map fst ops) ->
  Forall (fun q => forall i k, snd q = Some (AtValue i k) -> i = 0%nat) ops -> f_publishes ne o ops ac a ->
  ad_count a = u64 (ad_lossy a + Z.of_nat (length (ad_data a))).
Proof.
  intros ne Hne o ops ac a HT HF HH HZ P. destruct (published_as ne Hne o ops ac a HT HF P) as (H1 & _ & _ & _ & _ & _ & _ & H8).
  assert (X : a_extra ac = 0); [|rewrite H1, H8, X; f_equal; lia].
  destruct P as (es & s & s' & _ & -> & _). unfold account_of. clear - HH HZ.
  assert (K : forall a, a_extra a = 0 -> a_extra (fold_left a_step (combine ops es) a) = 0); [|apply K; reflexivity].
  revert es. induction ops as [|[op f] ops IH]; intros [|e es] a H; simpl combine; cbn [fold_left]; auto.
  apply IH; [exact (Forall_inv_tail HH)|exact (Forall_inv_tail HZ)|]. pose proof (Forall_inv HH) as H2. pose proof (Forall_inv HZ) as H3.
  cbn [fst snd map] in H2, H3. assert (X : op_excess op = 0) by (unfold op_honest in H2; unfold op_excess; lia).
  destruct e as [d|].
  - rewrite a_step_ret. destruct op; cbn [a_step a_extra]; try lia; [reflexivity|destruct d; [reflexivity|exact H]].
  - destruct f as [[i k| |]|]; cbn [a_step a_extra]; auto. rewrite (H3 i k eq_refl). simpl. lia.
Qed.
Print Assumptions C90_balance.

(** When no allocation fails this is the ordinary reducer. *)
Theorem C90_no_failure : forall ne o ops r, Forall no_failure ops ->
  ((exists es, f_run ne (Sound (reducer_new o)) ops = Ok (es, Sound r)) <-> r_run ne (reducer_new o) (map fst ops) = Ok r) /\
  (f_run ne (Sound (reducer_new o)) ops = Ub <-> r_run ne (reducer_new o) (map fst ops) = Ub).
Proof.
  intros ne o ops r HN. pose proof (run_same ne ops HN (reducer_new o)) as K.
  destruct (f_run ne (Sound (reducer_new o)) ops) as [[es s]| |].
  - destruct K as (r' & -> & -> & _). split; split; try discriminate.
    + intros (es' & E). now injection E as _ <-.
    + intros E. injection E as <-. eauto.
  - rewrite K. split; split; auto; try discriminate. intros (es & E). discriminate.
  - rewrite K. split; split; auto; try discriminate. intros (es & E). discriminate.
Qed.
Print Assumptions C90_no_failure.

(** clear() repairs everything, also what a failure inside reduce() or detach() has left: the record after it has the form of [C90_record],
    by the calls after it alone. *)
Theorem C90_clear_recovers : forall ne, nth_element_ok ne -> forall o before f after ac a,
  Forall (fun q => op_typed (fst q)) after -> Forall not_at_free after -> f_publishes ne o (before ++ (OpClear, f) :: after) ac a ->
  exists es, length es = length after /\ ac = account_of after es /\
  ad_count a = u64 (a_declared ac) /\
  submultiset (ad_data a) (a_tried ac) /\ (length (ad_data a) <= o_limit o)%nat /\
  u64 (ad_lossy a + Z.of_nat (length (ad_data a))) = u64 (a_declared ac + a_extra ac) /\
  (a_extremes ac <> [] -> is_min (ad_min a) (a_extremes ac) /\ is_max (ad_max a) (a_extremes ac)).
Proof.
  intros ne Hne o before f after ac a HT HF P.
  destruct (after_clear ne Hne o before f after ac a HT HF P) as ((H1 & H2 & H3 & H4 & H5 & H6 & H7 & H8) & es & L & ->).
  exists es. split; [exact L|]. split; [reflexivity|]. split; [exact H1|]. split; [exact H5|]. split; [exact H6|]. split; [exact H8|].
  intros N. assert (HI : Forall i64 (a_extremes (account_of after es))) by (apply extremes_typed; [exact HT|constructor]).
  rewrite H2, H3. split; [now apply fold_min_is|now apply fold_max_is].
Qed.
Print Assumptions C90_clear_recovers.

(** Failures of every kind; the history is typed, safe, and publishes. *)
Definition ex_fo : ropts := mk_ropts 4 3 Sorting Sorting.
Definition ex_fops : list (rop * option failure) :=
  [(OpAdd 7 1, Some (AtValue 0 FRow)); (OpAdd 5 1, Some (AtValue 0 FReserve)); (OpAdd 6 2, Some (AtValue 0 FGrow)); (OpAdd 6 2, None);
   (OpAddVec [1; 2; 3; 4; 9; 8], Some (AtValue 3 FReserve)); (OpPeek, Some AtStart); (OpDetach, Some AtStart);
   (OpAddArr [20; 30] 5, None); (OpReduce, None); (OpAddList [-4; 11], Some (AtValue 0 FRow)); (OpAddList [12], None)].
Example C90_witness : exists ac a,
  f_publishes ne_rev ex_fo ex_fops ac a /\ ad_count a = 8 /\ ad_lossy a + Z.of_nat (length (ad_data a)) = 11 /\ a_extra ac = 3 /\
  ad_min a = -4 /\ ad_max a = 30 /\ length (a_tried ac) = 12%nat /\ ad_data a <> [].
Proof.
  eexists _, _. split.
  { eexists _, _, _. split; [vm_compute; reflexivity|]. split; [reflexivity|vm_compute; reflexivity]. }
  vm_compute. intuition discriminate.
Qed.
Example C90_witness_typed : Forall (fun q => op_typed (fst q)) ex_fops /\ Forall not_at_free ex_fops /\ Forall op_safe (map fst ex_fops) /\
  Forall op_honest (map fst ex_fops).
Proof.
  unfold ex_fops. split; [|split; [|split]].
  - repeat (constructor; try (unfold op_typed, op_extremes, i64, i64_min, i64_max, is_u64, two64; simpl; lia));
      unfold i64, i64_min, i64_max, is_u64, two64; simpl; try lia.
  - repeat (constructor; [discriminate|]). constructor.
  - repeat (constructor; try (unfold op_safe, val_safe; simpl; lia)); unfold val_safe; simpl; lia.
  - repeat (constructor; [unfold op_honest; simpl; lia|]). constructor.
Qed.

(** A call that throws is not a call that has done nothing: the refused value is in minimum, maximum and average, and not in the count. *)
Theorem C90_strong_refuted : exists ac a b,
  f_publishes ne_rev ex_fo [(OpAddVec [10; 10; 10; 10], None); (OpAdd 1000 1, Some (AtValue 0 FRow)); (OpAdd 10 1, None)] ac a /\
  publishes ne_rev ex_fo [OpAddVec [10; 10; 10; 10]; OpAdd 10 1] b /\
  ad_count a = 5 /\ ad_count b = 5 /\ ad_max a = 1000 /\ ad_max b = 10 /\ ad_avg a = 175 /\ ad_avg b = 10 /\ ~ In 1000 (ad_data a).
Proof.
  eexists _, _, _. split.
  { eexists _, _, _. split; [vm_compute; reflexivity|]. split; [reflexivity|vm_compute; reflexivity]. }
  split; [eexists _, _; split; [vm_compute; reflexivity|vm_compute; reflexivity]|]. vm_compute. intuition discriminate.
Qed.
Print Assumptions C90_strong_refuted.
(** On a new reducer it makes a record of no measurement appear. *)
Theorem C90_phantom_refuted : exists ac a,
  f_publishes ne_rev ex_fo [(OpAdd 1000 1, Some (AtValue 0 FRow))] ac a /\ ad_count a = 0 /\ ad_data a = [] /\ ad_max a = 1000.
Proof.
  eexists _, _. split.
  { eexists _, _, _. split; [vm_compute; reflexivity|]. split; [reflexivity|vm_compute; reflexivity]. }
  vm_compute. auto.
Qed.
Print Assumptions C90_phantom_refuted.
(** An array call that throws leaves values in the record that the count does not cover. *)
Theorem C90_uncounted_refuted : exists ac a,
  f_publishes ne_rev ex_fo [(OpAddVec [1; 2; 3; 4; 5], Some (AtValue 4 FRow))] ac a /\ ad_count a = 0 /\ ad_data a = [1; 2; 3; 4].
Proof.
  eexists _, _. split.
  { eexists _, _, _. split; [vm_compute; reflexivity|]. split; [reflexivity|vm_compute; reflexivity]. }
  vm_compute. auto.
Qed.
Print Assumptions C90_uncounted_refuted.
(** add({...}) that throws on an empty reducer is not seen by detach(), which gives no record; its values are in the next window's record. *)
Theorem C90_leak_refuted : exists ac a,
  f_publishes ne_rev ex_fo [(OpAddList [1; 2; 3; 4; 1000], Some (AtValue 4 FRow)); (OpDetach, None); (OpAdd 10 1, None)] ac a /\
  f_run ne_rev (Sound (reducer_new ex_fo)) [(OpAddList [1; 2; 3; 4; 1000], Some (AtValue 4 FRow)); (OpDetach, None)] <> Ub /\
  ad_count a = 1 /\ ad_max a = 1000 /\ In 1 (ad_data a).
Proof.
  eexists _, _. split.
  { eexists _, _, _. split; [vm_compute; reflexivity|]. split; [reflexivity|vm_compute; reflexivity]. }
  split; [vm_compute; discriminate|]. vm_compute. auto 10.
Qed.
Print Assumptions C90_leak_refuted.
(** A failure while a full record is put together ruins the reducer: the next add() of a value dereferences a null pointer, and so does
    the next detach(); the same calls without the failure are defined. *)
Theorem C90_close_refuted : exists es s,
  f_run ne_rev (Sound (reducer_new ex_fo)) [(OpAddVec [1; 2; 3; 4; 5], None); (OpDetach, Some AtFree)] = Ok (es, s) /\
  es = [FRet None; FThrew] /\ f_call ne_rev (OpAdd 6 1) None s = Ub /\ f_call ne_rev OpDetach None s = Ub /\
  exists es' s', f_run ne_rev (Sound (reducer_new ex_fo)) [(OpAddVec [1; 2; 3; 4; 5], None); (OpDetach, None); (OpAdd 6 1, None); (OpDetach, None)] = Ok (es', s').
Proof.
  eexists _, _. split; [vm_compute; reflexivity|]. split; [reflexivity|]. split; [reflexivity|]. split; [reflexivity|].
  eexists _, _. vm_compute. reflexivity.
Qed.
Print Assumptions C90_close_refuted.
(** The hypotheses of [C90_clear_recovers] are met after such a failure. *)
Example C90_clear_witness : exists ac a,
  f_publishes ne_rev ex_fo ([(OpAddVec [1; 2; 3; 4; 5], None); (OpDetach, Some AtFree)] ++ (OpClear, None) :: [(OpAdd 6 1, None); (OpAddVec [7; 8], Some (AtValue 1 FGrow))]) ac a /\
  ad_count a = 1 /\ ad_data a = [6; 7].
Proof.
  eexists _, _. split.
  { eexists _, _, _. split; [vm_compute; reflexivity|]. split; [reflexivity|vm_compute; reflexivity]. }
  vm_compute. auto.
Qed.
