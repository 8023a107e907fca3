(** C97: a packer when memory runs out (wrtstat/multi_packer/basic_packer.cpp). *)
From Coq Require Import String Ascii ZArith NArith List Bool Permutation Lia PeanoNat.
From Verif Require Import Base ModelTypes ModelRegistry ModelJson ModelPacker SpecPacker PackName PackerProofs PackerSize PackerMore PropsPacker
  ModelPackThrow SpecPackThrow PackThrowProofs PackThrowFinal PropsPackThrow ModelPackAlloc SpecPackAlloc PackAllocProofs.
Import ListNotations.
Local Open Scope Z_scope.
Local Open Scope list_scope.

(** A history with failures of every kind but the one behind the loop of pushout(). *)
Definition zx_calls : list zcall :=
  [ZMulti [px "a~~b" [1; 2]; px "b" [3]; px "c" []] None; ZPush (px "x" [7]) true; ZMulti [px "d" [4]; px "e" [5]] (Some 1%nat);
   ZMultiPop (Some FStart); ZMultiPop (Some (FTaken 1)); ZPush (px "f" [6]) false; ZPushout (Some (InTurn 1 FEnd)); ZPushout None].

(** Every call ends: it returns, or leaves with bad_alloc. *)
Theorem C97_returns : forall esc left o h cs, (po_ncompact o = true -> po_sep o <> []) ->
  exists rs p, pk_run_f esc left (pk_new o h) cs = Some (rs, p).
Proof. intros esc left o h cs Ho. destruct (run_f_t esc left o h Ho cs _ (SInv_new o h)) as (rs & p & E & _). eauto. Qed.
Print Assumptions C97_returns.

(** Histories in which no allocation fails are those of C37-C44. *)
Theorem C97_plain : forall esc left o h cs, Forall z_sound cs ->
  pk_run_f esc left (pk_new o h) cs = option_map (fun q => (map z_result (fst q), snd q)) (pk_run esc (pk_new o h) (map z_plain cs)).
Proof. intros esc left o h cs H. apply run_f_plain. exact H. Qed.
Print Assumptions C97_plain.

(** Every batch handed over can be read.  Each record stored (and each hollow copy made by a failure behind the loop of pushout()) is
    handed over once, or popped, or lost in a call that failed, or still stored. *)
Theorem C97_accounting : forall jp, jparser_ok jp -> forall esc left o h cs rs p, (po_ncompact o = true -> po_sep o <> []) ->
  names_weight (flat_map z_pushed cs ++ copies left cs rs) <= two64 ->
  pk_run_f esc left (pk_new o h) cs = Some (rs, p) ->
  Forall (fun b => fst (recompact jp b) = true /\ map pu_data (mp_data b) = map pu_data (received jp b)) (flat_map z_batches rs) /\
  Permutation (flat_map z_pushed cs ++ copies left cs rs)
    (flat_map (received jp) (flat_map z_batches rs) ++ flat_map z_singles rs ++ flat_map z_lost rs ++ stored p).
Proof.
  intros jp OK esc left o h cs rs p Ho Hw H.
  destruct (run_f_s esc left jp OK o h Ho cs (pk_new o h) rs p (SInv_new o h)) as (G & P); [|exact H|].
  { unfold stored. simpl. rewrite app_nil_r. exact Hw. }
  split; [exact G|]. change (stored (pk_new o h)) with (@nil push) in P. rewrite app_nil_r in P. exact P.
Qed.
Print Assumptions C97_accounting.

Example C97_witness : exists rs p, pk_run_f esc_std emptied (pk_new (px_o 320 true) true) zx_calls = Some (rs, p) /\
  names_weight (flat_map z_pushed zx_calls ++ copies emptied zx_calls rs) <= two64 /\ copies emptied zx_calls rs = [] /\
  map pu_name (flat_map z_pushed zx_calls) = [str "a~~b"; str "b"; str "c"; str "d"; str "f"] /\
  map pu_name (flat_map z_lost rs) = [str "a~~b"; str "b"; str "c"] /\
  map pu_name (flat_map (received jp_std) (flat_map z_batches rs)) = [str "d"; str "f"] /\ map pu_name (stored p) = [].
Proof.
  eexists _, _. split; [vm_compute; reflexivity|]. split; [vm_compute; discriminate|]. vm_compute. auto.
Qed.

(** Unless a call fails behind the loop of pushout() after it has begun to move the records, the packer is afterwards in a state that
    ordinary calls lead to: C38-C42, C56 and C57 hold of what follows. *)
Theorem C97_reachable : forall esc left o h cs rs p, (po_ncompact o = true -> po_sep o <> []) ->
  pk_run_f esc left (pk_new o h) cs = Some (rs, p) -> copies left cs rs = [] ->
  exists cs' rs', pk_run esc (pk_new o h) cs' = Some (rs', p).
Proof.
  intros esc left o h cs rs p Ho H N. destruct (run_f_t esc left o h Ho cs _ (SInv_new o h)) as (rs' & p' & E & _ & R).
  rewrite H in E. injection E as <- <-. exact (R N).
Qed.
Print Assumptions C97_reachable.

(** push() has no effect if it fails; multi_push() has stored the records in front of the one it fails at. *)
Theorem C97_push : forall esc left p, (forall r, pk_do_f esc left (ZPush r true) p = Some (ZFailed [] [], p)) /\
  forall l i q p', pk_do_f esc left (ZMulti l (Some i)) p = Some (q, p') -> pk_do_f esc left (ZMulti (firstn i l) None) p = Some (ZNothing, p').
Proof.
  intros esc left p. split; [reflexivity|]. intros l i q p' H. cbn [pk_do_f] in *. destruct (pk_pushes esc (firstn i l) p); [|discriminate].
  injection H as _ <-. reflexivity.
Qed.
Print Assumptions C97_push.

(** A call of multi_pop() that fails loses the first records of the batch it was about to return, or all of them and one record more, which
    it had taken out and was about to put back. *)
Theorem C97_loss : forall jp, jparser_ok jp -> forall esc left o h cs rs p f lost p1, (po_ncompact o = true -> po_sep o <> []) ->
  pk_run_f esc left (pk_new o h) cs = Some (rs, p) -> names_weight (stored p) <= two64 ->
  pk_do_f esc left (ZMultiPop (Some f)) p = Some (ZFailed [] lost, p1) ->
  Permutation (stored p) (lost ++ stored p1) /\
  exists b p', pk_multi_pop esc p = Some (b, p') /\
    let would := match b with Some m => received jp m | None => [] end in
    (exists rest, would = lost ++ rest) \/ (exists x, lost = would ++ [x] /\ In x (stored p')).
Proof.
  intros jp OK esc left o h cs rs p f lost p1 Ho H W D. destruct (run_f_t esc left o h Ho cs _ (SInv_new o h)) as (rs' & p' & E & I & _).
  rewrite H in E. injection E as <- <-. cbn [pk_do_f] in D. destruct (multi_pop_f_t esc o h p f Ho I) as (e & q & F & _ & _ & P).
  rewrite F in D. destruct e as [b|l]; [discriminate|]. injection D as -> ->. split; [exact P|].
  exact (multi_pop_f_loss esc jp OK o h p f lost p1 Ho I W F).
Qed.
Print Assumptions C97_loss.

(** The first failure loses the two records it had taken out: more memory does not bring them back. *)
Example C97_loss_witness : exists rs p lost p1, pk_run_f esc_std emptied (pk_new (px_o 320 true) true) (firstn 4 zx_calls) = Some (rs, p) /\
  names_weight (stored p) <= two64 /\ pk_do_f esc_std emptied (ZMultiPop (Some (FTaken 1))) p = Some (ZFailed [] lost, p1) /\
  map pu_name lost = [str "a~~b"; str "b"] /\ map pu_name (stored p1) = [str "c"; str "d"].
Proof.
  eexists _, _, _, _. split; [vm_compute; reflexivity|]. split; [vm_compute; discriminate|]. split; [vm_compute; reflexivity|].
  vm_compute. auto.
Qed.

(** So a multi_pop() or pushout() that fails is not without effect: a record of a history in which every push() succeeded is neither
    handed over nor stored. *)
Theorem C97_multi_pop_refuted : forall left, exists cs rs p x, pk_run_f esc_std left (pk_new (px_o 320 true) true) cs = Some (rs, p) /\
  Forall (fun c => match c with ZPush _ true | ZMulti _ (Some _) => False | _ => True end) cs /\ copies left cs rs = [] /\
  In x (flat_map z_pushed cs) /\ ~ In x (flat_map (received jp_std) (flat_map z_batches rs) ++ flat_map z_singles rs ++ stored p).
Proof.
  intros left. exists [ZMulti [px "a" [1]; px "b" [2]] None; ZMultiPop (Some FEnd); ZPush (px "c" [3]) false; ZPushout None].
  eexists _, _, (px "a" [1]). split; [vm_compute; reflexivity|]. split; [repeat constructor|]. split; [vm_compute; reflexivity|].
  split; [vm_compute; auto|]. vm_compute. intros [H|[]]. discriminate.
Qed.
Print Assumptions C97_multi_pop_refuted.

(** And a pushout() that fails behind its loop leaves records behind that nobody pushed; the next pushout() hands them over. *)
Theorem C97_copies_refuted : exists rs p x,
  pk_run_f esc_std emptied (pk_new (px_o 150 true) true)
    [ZMulti [px "a~~b" [1; 2]; px "b" [3]; px "c" []] None; ZPushout (Some (Moved 2)); ZPushout None] = Some (rs, p) /\
  In x (flat_map (received jp_std) (flat_map z_batches rs)) /\ ~ In x [px "a~~b" [1; 2]; px "b" [3]; px "c" []] /\
  map pu_name (flat_map z_lost rs) = [str "c"; str "b"] /\
  map pu_name (flat_map (received jp_std) (flat_map z_batches rs)) = [[]; []; str "a~~b"].
Proof.
  eexists _, _, (hollow emptied (px "b" [3])). split; [vm_compute; reflexivity|]. split; [vm_compute; auto|].
  split; [vm_compute; intros [H|[H|[H|[]]]]; discriminate|]. vm_compute. auto.
Qed.
Print Assumptions C97_copies_refuted.
