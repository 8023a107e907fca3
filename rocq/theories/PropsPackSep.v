(** C37: the separator and the legend of the messages a packer hands out, for every history of calls (basic_packer.cpp). *)
From Coq Require Import String Ascii ZArith NArith List Bool Lia.
From Verif Require Import Base ModelTypes ModelRegistry ModelJson ModelPacker SpecPacker PackName PackerProofs PropsPacker.
Import ListNotations.
Local Open Scope Z_scope.
Local Open Scope list_scope.

Section Sep.
  Variable esc : name -> name.
  Lemma push_opt r p p1 : pk_push esc r p = Some p1 -> pk_opt p1 = pk_opt p.
  Proof.
    unfold pk_push. destruct (po_ncompact (pk_opt p)); [|intros E; injection E as <-; reflexivity].
    destruct (compact_name _ _ _) as [[n lg]|]; [|discriminate]. intros E. injection E as <-. reflexivity.
  Qed.
  Lemma pushes_opt l : forall p p1, pk_pushes esc l p = Some p1 -> pk_opt p1 = pk_opt p.
  Proof.
    induction l as [|r l IH]; intros p p1 E; cbn [pk_pushes] in E; [injection E as <-; reflexivity|].
    destruct (pk_push esc r p) as [p2|] eqn:P; [|discriminate]. rewrite (IH _ _ E). eapply push_opt; exact P.
  Qed.
  Lemma pop_opt m p t p1 : pk_pop m p = Some (t, p1) -> pk_opt p1 = pk_opt p.
  Proof.
    unfold pk_pop. destruct (pk_top p); [discriminate|]. intros E.
    match type of E with match ?x with _ => _ end = _ => destruct x as [i|]; [|discriminate] end.
    destruct (nth_error _ i); [|discriminate]. injection E as _ <-. reflexivity.
  Qed.
  Lemma loop_opt fuel : forall jl pl dl seen res p res1 p1, pop_loop esc fuel jl pl dl seen res p = Some (res1, p1) -> pk_opt p1 = pk_opt p.
  Proof.
    induction fuel as [|fuel IH]; intros jl pl dl seen res p res1 p1 E; cbn [pop_loop] in E; [discriminate|].
    destruct (jl <=? 0); [injection E as _ <-; reflexivity|]. destruct (pk_pop jl p) as [[t p2]|] eqn:P; [|injection E as _ <-; reflexivity].
    apply pop_opt in P. destruct (charge _ _ _) as [cur seen1]. destruct (cur <=? jl).
    - cbv zeta in E. destruct (negb (po_push (pk_opt p) =? 0) && _); [injection E as _ <-; exact P|].
      destruct (negb (po_data (pk_opt p) =? 0) && _); [injection E as _ <-; exact P|]. rewrite (IH _ _ _ _ _ _ _ _ E). exact P.
    - destruct (pk_push esc _ p2) as [p3|] eqn:Q; [|discriminate]. injection E as _ <-. rewrite (push_opt _ _ _ Q). exact P.
  Qed.
  Definition plain_message (o : popts) (m : mpush) : Prop := mp_sep m = po_sep o /\ (po_ncompact o = false -> mp_legend m = []).
  Lemma compact_sep m b m1 : compact m = Some (b, m1) -> mp_sep m1 = mp_sep m.
  Proof.
    unfold compact. destruct (mp_sep m) as [|c s] eqn:S; [intros E; injection E as _ <-; exact S|].
    destruct (compact_data _ _ _) as [[d lg]|]; [|discriminate]. intros E. injection E as _ <-. reflexivity.
  Qed.
  Lemma multi_pop_sep p b p1 : pk_multi_pop esc p = Some (b, p1) -> pk_opt p1 = pk_opt p /\ forall m, b = Some m -> plain_message (pk_opt p) m.
  Proof.
    unfold pk_multi_pop. intros E. destruct (pk_top p); [injection E as <- <-; split; [reflexivity|discriminate]|].
    destruct (po_json (pk_opt p) <? _); [injection E as <- <-; split; [reflexivity|discriminate]|].
    destruct (pop_loop _ _ _ _ _ _ _ _) as [[[|r res] p2]|] eqn:L; [| |discriminate]; apply loop_opt in L; [injection E as <- <-; split; [exact L|discriminate]|].
    cbv zeta in E. destruct (po_ncompact (pk_opt p)) eqn:N.
    - destruct (compact _) as [[b1 m1]|] eqn:C; [|discriminate]. injection E as <- <-. split; [exact L|]. intros m X. injection X as <-.
      apply compact_sep in C. split; [exact C|congruence].
    - injection E as <- <-. split; [exact L|]. intros m X. injection X as <-. split; reflexivity.
  Qed.
  Lemma pushout_loop_sep fuel : forall p ms p1, pushout_loop esc fuel p = Some (ms, p1) -> pk_opt p1 = pk_opt p /\ Forall (plain_message (pk_opt p)) ms.
  Proof.
    induction fuel as [|fuel IH]; intros p ms p1 E; cbn [pushout_loop] in E; [discriminate|].
    destruct (pk_multi_pop esc p) as [[[m|] p2]|] eqn:M; [| |discriminate]; apply multi_pop_sep in M; destruct M as [O1 M].
    - destruct (pushout_loop esc fuel p2) as [[ms1 p3]|] eqn:L; [|discriminate]. injection E as <- <-. destruct (IH _ _ _ L) as [O2 F]. rewrite O1 in *.
      split; [exact O2|]. constructor; [apply M; reflexivity|exact F].
    - injection E as <- <-. split; [exact O1|constructor].
  Qed.
  Definition messages_ok (o : popts) (c : pcall) (r : pres) : Prop :=
    exists ms left, batches r = ms ++ left /\ Forall (plain_message o) ms /\ (length left <= 1)%nat /\ (left <> [] -> c = PPushout) /\
      Forall (fun m => mp_sep m = str "~~") left.
  Lemma do_sep c p r p1 : pk_do esc c p = Some (r, p1) -> pk_opt p1 = pk_opt p /\ messages_ok (pk_opt p) c r.
  Proof.
    assert (N : forall r, batches r = [] -> messages_ok (pk_opt p) c r).
    { intros x X. exists [], []. rewrite X. split; [reflexivity|]. split; [constructor|]. split; [cbn; lia|]. split; [congruence|constructor]. }
    destruct c as [x|l|m| |]; cbn [pk_do]; intros E.
    - destruct (pk_push esc x p) eqn:P; [|discriminate]. injection E as <- <-. split; [eapply push_opt; exact P|apply N; reflexivity].
    - destruct (pk_pushes esc l p) eqn:P; [|discriminate]. injection E as <- <-. split; [eapply pushes_opt; exact P|apply N; reflexivity].
    - destruct (pk_pop m p) as [[t p2]|] eqn:P; injection E as <- <-; (split; [try reflexivity; eapply pop_opt; exact P|apply N; reflexivity]).
    - destruct (pk_multi_pop esc p) as [[b p2]|] eqn:P; [|discriminate]. injection E as <- <-. apply multi_pop_sep in P. destruct P as [O1 P]. split; [exact O1|].
      destruct b as [m|]; [|apply N; reflexivity]. exists [m], []. split; [reflexivity|]. split; [constructor; [apply P; reflexivity|constructor]|].
      split; [cbn; lia|]. split; [congruence|constructor].
    - unfold pk_pushout in E. destruct (pk_handler p); [|injection E as <- <-; split; [reflexivity|apply N; reflexivity]].
      destruct (pushout_loop _ _ _) as [[ms p2]|] eqn:L; [|discriminate]. apply pushout_loop_sep in L. destruct L as [O1 F].
      destruct (pk_top p2) as [|t l].
      + injection E as <- <-. split; [exact O1|]. exists ms, []. split; [cbn [batches]; now rewrite app_nil_r|]. split; [exact F|]. split; [cbn; lia|]. split; [congruence|constructor].
      + destruct (compact _) as [[b m]|] eqn:C; [|discriminate]. injection E as <- <-. split; [exact O1|]. exists ms, [m]. split; [reflexivity|]. split; [exact F|].
        split; [cbn; lia|]. split; [reflexivity|]. apply compact_sep in C. constructor; [exact C|constructor].
  Qed.
End Sep.

(** Every message carries the separator of the options, and no legend unless names are compacted; only a pushout may end with one more
    message, of what did not fit, whose separator is "~~" whatever the options say. *)
Theorem C37_separators : forall esc o h cs rs p, pk_run esc (pk_new o h) cs = Some (rs, p) ->
  forall i c r, nth_error cs i = Some c -> nth_error rs i = Some r ->
  exists ms left, batches r = ms ++ left /\
    Forall (fun m => mp_sep m = po_sep o /\ (po_ncompact o = false -> mp_legend m = [])) ms /\
    (length left <= 1)%nat /\ (left <> [] -> c = PPushout) /\ Forall (fun m => mp_sep m = str "~~") left.
Proof.
  intros esc o h cs. change o with (pk_opt (pk_new o h)) at 2 3. generalize (pk_new o h) as q. induction cs as [|c0 cs IH]; intros q rs p R i c r A B; cbn [pk_run] in R.
  - destruct i; discriminate.
  - destruct (pk_do esc c0 q) as [[r0 q1]|] eqn:D; [|discriminate]. destruct (pk_run esc q1 cs) as [[rs1 p1]|] eqn:R1; [|discriminate]. injection R as <- <-.
    apply do_sep in D. destruct D as [O1 M]. destruct i as [|i]; cbn [nth_error] in A, B.
    + injection A as <-. injection B as <-. exact M.
    + rewrite <- O1. eapply IH; eassumption.
Qed.
Print Assumptions C37_separators.
(** Separator "::"; a batch, then a pushout with a record that does not fit. *)
Example C37_separators_witness : exists rs p,
  pk_run esc_std (pk_new (mk_popts 0 0 200 false (str "::") false) true)
    [PPush (px "a" [1]); PMultiPop; PPush (px "b" [2]); PPush (px "c" (repeat 123456789 20)); PPushout] = Some (rs, p) /\
  map (fun m => (mp_sep m, mp_legend m)) (flat_map batches rs) = [(str "::", []); (str "::", []); (str "~~", [str "c"])].
Proof. eexists _, _. split; [vm_compute; reflexivity|]. vm_compute. reflexivity. Qed.
