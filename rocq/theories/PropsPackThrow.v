(** C92: a packer whose handler throws (wrtstat/multi_packer/basic_packer.cpp:24-50). *)
From Coq Require Import String Ascii ZArith NArith List Bool Permutation Lia PeanoNat.
From Verif Require Import Base ModelTypes ModelRegistry ModelJson ModelPacker SpecPacker PackName PackerProofs PackerSize PackerMore PropsPacker
  ModelPackThrow SpecPackThrow PackThrowProofs PackThrowFinal.
Import ListNotations.
Local Open Scope Z_scope.
Local Open Scope list_scope.

(** libstdc++: a string that was moved from is empty. *)
Definition emptied (n : name) : name := [].
(** Two records under limits they meet, the handler throws on the first batch, then on none; two more records that are too
    big for the limit. *)
Definition th_calls : list ycall :=
  [YMulti [px "a~~b" [1; 2]; px "b" [3]; px "c" []]; YPushout (Some 0%nat); YPush (px "d" [4]); YPushout None].
Definition th_big : list ycall := [YMulti [px "a~~b" [1; 2]; px "b" [3]]; YPushout (Some 0%nat); YPushout None].

(** Whatever handlers throw, every call ends: it returns, or leaves with the handler's exception. *)
Theorem C92_returns : forall esc left o h cs, (po_ncompact o = true -> po_sep o <> []) ->
  exists rs p, pk_run_x esc left (pk_new o h) cs = Some (rs, p).
Proof.
  intros esc left o h cs Ho. destruct (run_x_t esc left o h Ho cs _ (SInv_new o h)) as (rs & p & E & _). eauto.
Qed.
Print Assumptions C92_returns.

(** Histories in which no handler throws are those of C37-C44. *)
Theorem C92_no_throw : forall esc left o h cs, Forall never cs ->
  pk_run_x esc left (pk_new o h) cs = option_map (fun q => (map y_result (fst q), snd q)) (pk_run esc (pk_new o h) (map y_plain cs)).
Proof. intros esc left o h cs H. apply run_x_plain. exact H. Qed.
Print Assumptions C92_no_throw.

(** Every batch, also one on which the handler throws, can be read.  What was pushed, and besides it one hollow copy of
    every record of a batch refused behind the loop, is what was delivered, refused, popped one by one or is still stored. *)
Theorem C92_accounting : forall jp, jparser_ok jp -> forall esc left o h cs rs p, (po_ncompact o = true -> po_sep o <> []) ->
  names_weight (flat_map y_pushed cs ++ flat_map (y_copies left jp) rs) <= two64 ->
  pk_run_x esc left (pk_new o h) cs = Some (rs, p) ->
  Forall (fun b => fst (recompact jp b) = true /\ map pu_data (mp_data b) = map pu_data (received jp b)) (flat_map y_batches rs) /\
  Permutation (flat_map y_pushed cs ++ flat_map (y_copies left jp) rs)
    (flat_map (received jp) (flat_map y_accepted rs) ++ flat_map (received jp) (flat_map y_refused rs) ++ flat_map y_singles rs ++ stored p).
Proof.
  intros jp OK esc left o h cs rs p Ho Hw H.
  destruct (run_x_s esc left jp OK o h Ho cs (pk_new o h) rs p (SInv_new o h)) as (_ & G & P); [|exact H|].
  { unfold stored. simpl. rewrite app_nil_r. exact Hw. }
  split; [exact G|]. change (stored (pk_new o h)) with (@nil push) in P. rewrite app_nil_r in P. rewrite P.
  rewrite (app_assoc (flat_map (received jp) (flat_map y_accepted rs))). apply Permutation_app_tail. unfold recv. clear.
  induction rs as [|r rs IH]; [reflexivity|]. cbn [flat_map]. rewrite !flat_map_app, IH, split_batches, flat_map_app, <- !app_assoc.
  apply Permutation_app_head. rewrite !app_assoc. apply Permutation_app_tail. apply Permutation_app_comm.
Qed.
Print Assumptions C92_accounting.

Example C92_accounting_witness : exists rs p, pk_run_x esc_std emptied (pk_new (px_o 320 true) true) th_calls = Some (rs, p) /\
  flat_map y_refused rs <> [] /\ length (flat_map (received jp_std) (flat_map y_refused rs)) = 2%nat /\
  map pu_name (flat_map (received jp_std) (flat_map y_accepted rs)) = [str "d"; str "c"] /\
  stored p = [] /\ flat_map (y_copies emptied jp_std) rs = [] /\ names_weight (flat_map y_pushed th_calls) <= two64.
Proof.
  eexists _, _. split; [vm_compute; reflexivity|]. split; [discriminate|]. split; [vm_compute; reflexivity|].
  split; [vm_compute; reflexivity|]. split; [vm_compute; reflexivity|]. split; [vm_compute; reflexivity|]. vm_compute. discriminate.
Qed.

(** If every record pushed fits a batch of its own, no copies come up: each record is delivered, refused, popped or still
    stored, once. *)
Theorem C92_exactly_once : forall jp, jparser_ok jp -> forall esc left o h cs rs p, (po_ncompact o = true -> po_sep o <> []) ->
  names_weight (flat_map y_pushed cs) <= two64 -> Forall (fits esc o) (flat_map y_pushed cs) ->
  pk_run_x esc left (pk_new o h) cs = Some (rs, p) ->
  no_tail rs /\
  Permutation (flat_map y_pushed cs)
    (flat_map (received jp) (flat_map y_accepted rs) ++ flat_map (received jp) (flat_map y_refused rs) ++ flat_map y_singles rs ++ stored p).
Proof.
  intros jp OK esc left o h cs rs p Ho Hw F H.
  assert (N : no_tail rs).
  { apply (run_x_fits esc left o h Ho cs (pk_new o h) rs p (PInv_new esc o h)); [|exact H].
    unfold stored. simpl. rewrite app_nil_r. exact F. }
  split; [exact N|]. destruct (C92_accounting jp OK esc left o h cs rs p Ho) as (_ & P); [|exact H|].
  - rewrite (no_copies left jp rs N), app_nil_r. exact Hw.
  - rewrite (no_copies left jp rs N), app_nil_r in P. exact P.
Qed.
Print Assumptions C92_exactly_once.

Example C92_exactly_once_witness : Forall (fits esc_std (px_o 320 true)) (flat_map y_pushed th_calls) /\
  length (flat_map y_pushed th_calls) = 4%nat.
Proof.
  split; [|reflexivity]. unfold th_calls. cbn [flat_map y_pushed app].
  repeat (apply Forall_cons; [split; vm_compute; congruence|]). apply Forall_nil.
Qed.

(** The call that fails, from the one that does not: a call of pushout() that hands over the batches [ms] and returns [n]
    hands over the first k + 1 of them if the handler throws at its (k+1)-th call, and leaves with the exception. *)
Theorem C92_call : forall esc left p n ms p', pk_pushout esc p = Some (n, ms, p') -> forall k,
  exists p1, pk_pushout_x esc left (Some k) p =
    Some (if (length ms <=? k)%nat then OReturned n else if (k <? n)%nat then OThrewLoop else OThrewTail, firstn (S k) ms, p1) /\
    ((length ms <= k)%nat -> p1 = p').
Proof.
  intros esc left p n ms p' H k. destruct (pushout_x_cut esc left p n ms p' H k) as (p1 & A & B & _). eauto.
Qed.
Print Assumptions C92_call.

Lemma reach_s : forall esc left o h cs rs p, opts_ok o -> pk_run_x esc left (pk_new o h) cs = Some (rs, p) -> SInv o h p.
Proof.
  intros esc left o h cs rs p Ho H. destruct (run_x_t esc left o h Ho cs _ (SInv_new o h)) as (rs' & p' & E & I).
  rewrite E in H. injection H as <- <-. exact I.
Qed.

(** Thrown in the loop: the packer is as after k + 1 calls of multi_pop().  Calling pushout() again hands over exactly the
    batches that were still missing, and ends in the same state. *)
Theorem C92_retry : forall esc left o cs rs p n ms p' k, (po_ncompact o = true -> po_sep o <> []) ->
  pk_run_x esc left (pk_new o true) cs = Some (rs, p) -> pk_pushout esc p = Some (n, ms, p') -> (k < n)%nat ->
  exists p1, pk_pushout_x esc left (Some k) p = Some (OThrewLoop, firstn (S k) ms, p1) /\
    pk_run esc p (repeat PMultiPop (S k)) = Some (map (fun b => RBatch (Some b)) (firstn (S k) ms), p1) /\
    pk_pushout esc p1 = Some ((n - S k)%nat, skipn (S k) ms, p').
Proof.
  intros esc left o cs rs p n ms p' k Ho H Q Lt. apply reach_s in H; [|exact Ho].
  destruct (pushout_x_cut esc left p n ms p' Q k) as (p1 & A & _ & B & _). destruct (B Lt) as (B1 & B2). exists p1.
  assert (L : (k < length ms)%nat).
  { unfold pk_pushout in Q. destruct (pk_handler p); [|injection Q as <- <- <-; lia].
    destruct (pushout_loop esc _ p) as [[ms1 q]|]; [|discriminate]. destruct (pk_top q); [injection Q as <- <- <-; exact Lt|].
    destruct (compact _) as [[b m]|]; [|discriminate]. injection Q as <- <- <-. rewrite app_length. lia. }
  rewrite (proj2 (Nat.leb_gt _ _) L), (proj2 (Nat.ltb_lt _ _) Lt) in A. split; [exact A|]. split; [exact B1|].
  assert (EO : pk_opt p = o) by apply H. rewrite <- EO in *. apply B2; [exact H| |exact Ho].
  destruct (pushout_x_t esc left (pk_opt p) true Ho (Some k) p H) as (x & y & z & X & I). rewrite A in X. injection X as <- <- <-.
  split; [apply I|exact I].
Qed.
Print Assumptions C92_retry.

Example C92_retry_witness : exists rs p n ms p', pk_run_x esc_std emptied (pk_new (px_o 320 true) true) [YMulti [px "a~~b" [1; 2]; px "b" [3]; px "c" []]] = Some (rs, p) /\
  pk_pushout esc_std p = Some (n, ms, p') /\ n = 2%nat /\ length ms = 2%nat.
Proof. eexists _, _, _, _, _. split; [vm_compute; reflexivity|]. split; [vm_compute; reflexivity|]. vm_compute. auto. Qed.

(** Thrown behind the loop: everything had been handed over; the packer keeps a copy of every record of the last batch
    without its name and its values, but with its numbers.  clear() puts it into the state of the call that returns. *)
Theorem C92_tail : forall jp, jparser_ok jp -> forall esc left o cs rs p n ms p', (po_ncompact o = true -> po_sep o <> []) ->
  names_weight (stored p) <= two64 ->
  pk_run_x esc left (pk_new o true) cs = Some (rs, p) -> pk_pushout esc p = Some (n, ms, p') -> length ms <> n ->
  exists bs b p1, ms = bs ++ [b] /\ length bs = n /\ pk_pushout_x esc left (Some n) p = Some (OThrewTail, ms, p1) /\
    received jp b <> [] /\ stored p1 = map (hollow left) (received jp b) /\ pk_clear p1 = p' /\ stored p' = [] /\
    map (fun r => ad_info (pu_data r)) (stored p1) = map (fun r => ad_info (pu_data r)) (received jp b) /\
    Forall (fun r => ad_data (pu_data r) = []) (stored p1).
Proof.
  intros jp OK esc left o cs rs p n ms p' Ho Hw H Q Ne. apply reach_s in H; [|exact Ho].
  assert (L : length ms = n \/ length ms = S n).
  { unfold pk_pushout in Q. destruct (pk_handler p); [|injection Q as <- <- <-; auto].
    destruct (pushout_loop esc _ p) as [[ms1 q]|]; [|discriminate]. destruct (pk_top q); [injection Q as <- <- <-; auto|].
    destruct (compact _) as [[b m]|]; [|discriminate]. injection Q as <- <- <-. rewrite app_length. simpl. lia. }
  destruct L as [L|L]; [congruence|].
  destruct (pushout_x_cut esc left p n ms p' Q n) as (p1 & A & _ & _ & C). destruct C as (_ & _ & C); [lia|lia|].
  rewrite (proj2 (Nat.leb_gt _ _)) in A by lia. rewrite Nat.ltb_irrefl, firstn_all2 in A by lia.
  destruct (pushout_x_s esc left jp OK o true Ho (Some n) p OThrewTail ms p1 H Hw A) as (_ & _ & _ & _ & bs & b & E & S & N).
  exists bs, b, p1. split; [exact E|]. split; [rewrite E, app_length in L; simpl in L; lia|]. split; [exact A|]. split; [exact N|].
  split; [exact S|]. split; [exact C|]. split; [rewrite <- C; reflexivity|]. rewrite S. split; [now rewrite map_map|].
  apply Forall_map. apply Forall_forall. reflexivity.
Qed.
Print Assumptions C92_tail.

Example C92_tail_witness : exists rs p n ms p', pk_run_x esc_std emptied (pk_new (px_o 100 false) true) [YMulti [px "a~~b" [1; 2]; px "b" [3]]] = Some (rs, p) /\
  pk_pushout esc_std p = Some (n, ms, p') /\ n = 0%nat /\ length ms = 1%nat /\ names_weight (stored p) <= two64.
Proof.
  eexists _, _, _, _, _. split; [vm_compute; reflexivity|]. split; [vm_compute; reflexivity|]. split; [reflexivity|]. split; [reflexivity|].
  vm_compute. discriminate.
Qed.

(** "A batch on which the handler throws is handed over again by the next pushout()": it is not. *)
Theorem C92_again_refuted : exists o cs rs p, pk_run_x esc_std emptied (pk_new o true) cs = Some (rs, p) /\ stored p = [] /\
  Forall (fits esc_std o) (flat_map y_pushed cs) /\
  length (flat_map y_pushed cs) = 4%nat /\ length (flat_map (received jp_std) (flat_map y_accepted rs)) = 2%nat.
Proof.
  exists (px_o 320 true), th_calls. eexists _, _. split; [vm_compute; reflexivity|]. split; [vm_compute; reflexivity|].
  split; [apply C92_exactly_once_witness|]. split; [reflexivity|]. vm_compute. reflexivity.
Qed.
Print Assumptions C92_again_refuted.

(** "What is handed over has been pushed": after an exception behind the loop the next pushout() hands over records under
    the empty name, and the measurements of the refused batch are counted a second time. *)
Theorem C92_copies_refuted : exists o cs rs p, pk_run_x esc_std emptied (pk_new o true) cs = Some (rs, p) /\
  map (fun r => (pu_name r, ad_count (pu_data r))) (flat_map y_pushed cs) = [(str "a~~b", 3); (str "b", 3)] /\
  map (fun r => (pu_name r, ad_count (pu_data r))) (flat_map (received jp_std) (flat_map y_refused rs)) = [(str "b", 3); (str "a~~b", 3)] /\
  map (fun r => (pu_name r, ad_count (pu_data r))) (flat_map (received jp_std) (flat_map y_accepted rs)) = [([], 3); ([], 3)].
Proof.
  exists (px_o 100 false), th_big. eexists _, _. split; [vm_compute; reflexivity|]. split; [reflexivity|].
  split; [vm_compute; reflexivity|]. vm_compute. reflexivity.
Qed.
Print Assumptions C92_copies_refuted.
