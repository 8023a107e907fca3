(** C56 and C57 with name_compact: when multi_pop finds nothing, exactly. *)
From Coq Require Import String Ascii ZArith NArith List Bool Permutation Lia.
From Verif Require Import Base ModelTypes ModelRegistry ModelJson ModelPacker SpecPacker PackName PackerProofs PackerSize PackerMore PropsPacker.
Import ListNotations.
Local Open Scope Z_scope.
Local Open Scope list_scope.

(** What the legend of a record sent alone is charged: every distinct part of its name, with quotes and commas. *)
Definition legend_cost (o : popts) (r : push) : Z :=
  match compact (mk_mpush (po_sep o) [] [r]) with
  | Some (_, m) => fold_right (fun n s => zlen n + 4 + s) 0 (mp_legend m)
  | None => 0
  end.
(** The characters left for records by json_limit. *)
Definition room (esc : name -> name) (o : popts) : Z := po_json o - zlen (mpush_text esc (po_jcompact o) mpush0).
(** [r] is a largest of the records [l] that fit when the legend is disregarded. *)
Definition largest_fitting (esc : name -> name) (o : popts) (l : list push) (r : push) : Prop :=
  In r l /\ accounted esc o r <= room esc o /\
  forall x, In x l -> accounted esc o x <= room esc o -> accounted esc o x <= accounted esc o r.
Definition hidden (esc : name -> name) (o : popts) (l : list push) : Prop :=
  room esc o <= 0 \/ Forall (fun r => room esc o < accounted esc o r) l \/
  exists r, largest_fitting esc o l r /\ room esc o < accounted esc o r + legend_cost o r.

(* ---- proof ---- *)
Lemma charge_fresh : forall lg seen cur, NoDup lg -> (forall x, In x lg -> ~ In x seen) -> fst (charge lg seen cur) = cur + fold_right (fun n s => zlen n + 4 + s) 0 lg.
Proof.
  induction lg as [|n lg IH]; intros seen cur N F; cbn [charge fold_right fst]; [lia|]. inversion N as [|? ? N1 N2]; subst.
  destruct (existsb (name_eqb n) seen) eqn:E.
  - exfalso. apply existsb_exists in E. destruct E as (y & Hy & E). apply name_eqb_eq in E. subst y. exact (F n (or_introl eq_refl) Hy).
  - rewrite IH; [lia|exact N2|]. intros x Ix [<-|Iy]; [contradiction|]. exact (F x (or_intror Ix) Iy).
Qed.
Lemma legend_of_name : forall o r n lg, po_sep o <> [] -> compact_name (pu_name r) [] (po_sep o) = Some (n, lg) ->
  NoDup lg /\ legend_cost o r = fold_right (fun n s => zlen n + 4 + s) 0 lg.
Proof.
  intros o r n lg S H.
  assert (D : compact_data (po_sep o) [r] [] = Some ([mk_push n (pu_data r)], lg)) by (cbn [compact_data]; rewrite H; reflexivity).
  split; [apply (proj1 (compact_data_pieces (fun x => x) _ S _ _ _ _ D)); constructor|].
  unfold legend_cost, compact. cbn [mp_sep mp_data mp_legend]. destruct (po_sep o) as [|c s]; [congruence|]. rewrite D. reflexivity.
Qed.
Lemma nothing_hidden : forall esc o h p p', opts_ok o -> PInv esc o h p -> po_ncompact o = true -> stored p <> [] ->
  pk_multi_pop esc p = Some (None, p') -> hidden esc o (stored p).
Proof.
  intros esc o h p p' Ho I N NE H. unfold pk_multi_pop in H. destruct (pk_top p) as [|t0 l0] eqn:E.
  { contradiction NE. unfold stored. rewrite E. reflexivity. }
  rewrite <- E in H. clear E t0 l0 NE. assert (EO : pk_opt p = o) by apply I. rewrite EO in H.
  unfold hidden. change (room esc o) with (po_json o - mpush_size esc (po_jcompact o) mpush0).
  destruct (po_json o <? mpush_size esc (po_jcompact o) mpush0) eqn:Z0; [apply Z.ltb_lt in Z0; left; lia|].
  cbn [pop_loop] in H. destruct (po_json o - mpush_size esc (po_jcompact o) mpush0 <=? 0) eqn:Z1; [apply Z.leb_le in Z1; left; exact Z1|].
  right. pose proof (best_fit esc o h p (po_json o - mpush_size esc (po_jcompact o) mpush0) I) as B.
  pose proof (pop_ok esc o h p (po_json o - mpush_size esc (po_jcompact o) mpush0) I) as Q.
  destruct (pk_pop _ p) as [[t p1]|]; [|left; exact B]. right.
  destruct B as (T & Lt & Pm & Mx). destruct Q as (I1 & (_ & Tl) & _ & _ & _ & Ln). rewrite N in Tl. destruct Tl as [n Tl].
  destruct (legend_of_name o (t_rec t) n (t_legend t) (Ho N) Tl) as [ND LC].
  pose proof (charge_fresh (t_legend t) [] (t_size t) ND (fun x _ F => F)) as Ch.
  exists (t_rec t). split.
  { split; [apply (Permutation_in _ (Permutation_sym Pm)); left; reflexivity|]. unfold room. fold (mpush_size esc (po_jcompact o) mpush0).
    split; [lia|]. intros x Ix Fx. rewrite Forall_forall in Mx. specialize (Mx x Ix Fx). lia. }
  rewrite LC. rewrite T in Ch. destruct (charge (t_legend t) [] (t_size t)) as [cur seen] eqn:CE. rewrite T in CE. rewrite CE in Ch. cbn [fst] in Ch. 
  destruct (cur <=? po_json o - mpush_size esc (po_jcompact o) mpush0) eqn:F; [|apply Z.leb_gt in F; lia].
  exfalso. cbv zeta in H. rewrite EO, N in H.
  assert (X : forall e q, match (([] ++ [t_rec t]) ++ e : list push) with [] => Some (None, q)
     | _ :: _ => match compact (mk_mpush (po_sep o) [] (([] ++ [t_rec t]) ++ e)) with None => None | Some (_, m) => Some (Some m, q) end end = Some (None, p') -> False).
  { intros e q. cbn [app]. destruct (compact _) as [[b m]|]; discriminate. }
  match goal with H : match (if ?b then _ else _) with _ => _ end = _ |- _ => destruct b end; [apply (X [] p1); rewrite app_nil_r; exact H|].
  match goal with H : match (if ?b then _ else _) with _ => _ end = _ |- _ => destruct b end; [apply (X [] p1); rewrite app_nil_r; exact H|].
  match type of H with match pop_loop esc ?f ?a ?b ?c ?d ?e p1 with _ => _ end = _ =>
    destruct (pop_loop_ok esc o h Ho f a b c d e p1 I1) as (res & p2 & Y & _ & (e' & Z & _)) end; [lia|].
  rewrite Y in H. subst res. exact (X e' p2 H).
Qed.

(** C56 *)
(** With name compaction: multi_pop gives nothing only if the record it looks at, a largest of those that fit without
    their legend, does not fit with it (or none fits at all); nothing is lost then. *)
Theorem C56_compact_partial : forall esc o h cs rs p p', po_ncompact o = true -> po_sep o <> [] ->
  pk_run esc (pk_new o h) cs = Some (rs, p) -> stored p <> [] -> pk_multi_pop esc p = Some (None, p') ->
  Permutation (stored p') (stored p) /\ hidden esc o (stored p).
Proof.
  intros esc o h cs rs p p' N S H NE Q. assert (Ho : opts_ok o) by (unfold opts_ok; auto). apply reach_inv in H; [|exact Ho].
  split; [|exact (nothing_hidden esc o h p p' Ho H N NE Q)].
  destruct (multi_pop_inv esc o h p Ho H) as (b & p1 & E & _ & P). rewrite Q in E. injection E as <- <-. apply Permutation_sym. exact P.
Qed.
Print Assumptions C56_compact_partial.
(** So it gives a batch whenever every largest fitting record fits together with its legend. *)
Theorem C56_compact_gives : forall esc o h cs rs p, po_ncompact o = true -> po_sep o <> [] ->
  pk_run esc (pk_new o h) cs = Some (rs, p) -> 0 < room esc o ->
  Exists (fun r => accounted esc o r <= room esc o) (stored p) ->
  (forall r, largest_fitting esc o (stored p) r -> accounted esc o r + legend_cost o r <= room esc o) ->
  exists m p', pk_multi_pop esc p = Some (Some m, p') /\ mp_data m <> [].
Proof.
  intros esc o h cs rs p N S H R Ex All. assert (Ho : opts_ok o) by (unfold opts_ok; auto). apply reach_inv in H; [|exact Ho].
  destruct (multi_pop_inv esc o h p Ho H) as (b & p1 & E & _ & P). destruct b as [m|].
  - exists m, p1. split; [exact E|]. destruct (mp_data m); [destruct P as [P _]; cbn in P; lia|discriminate].
  - exfalso. assert (NE : stored p <> []) by (intros Z0; rewrite Z0 in Ex; inversion Ex).
    destruct (nothing_hidden esc o h p p1 Ho H N NE E) as [A|[A|(r & A & B)]].
    + lia.
    + apply Exists_exists in Ex. destruct Ex as (r & Ir & Fr). rewrite Forall_forall in A. specialize (A r Ir). lia.
    + specialize (All r A). lia.
Qed.
Print Assumptions C56_compact_gives.

(** The record with the long name is looked at and hides the other; with 250 it fits and is given. *)
Example C56_compact_witness : exists rs p, pk_run esc_std (pk_new (mk_popts 0 0 200 false sep0 true) true)
    [PMulti [px "a_quite_long_counter_name_with_a_long_legend_entry" []; px "a" []]] = Some (rs, p) /\
  (exists p', pk_multi_pop esc_std p = Some (None, p')) /\
  exists rs2 p2 m p2', pk_run esc_std (pk_new (mk_popts 0 0 250 false sep0 true) true)
    [PMulti [px "a_quite_long_counter_name_with_a_long_legend_entry" []; px "a" []]] = Some (rs2, p2) /\
    pk_multi_pop esc_std p2 = Some (Some m, p2') /\ length (mp_data m) = 1%nat /\
    forallb (fun r => accounted esc_std (mk_popts 0 0 250 false sep0 true) r + legend_cost (mk_popts 0 0 250 false sep0 true) r <=? room esc_std (mk_popts 0 0 250 false sep0 true)) (stored p2) = true.
Proof. eexists _, _. split; [vm_compute; reflexivity|]. split; [eexists; vm_compute; reflexivity|]. eexists _, _, _, _. split; [vm_compute; reflexivity|]. split; [vm_compute; reflexivity|]. split; vm_compute; reflexivity. Qed.

(** C57 *)
(** pushout() with name compaction: all batches but a last one are batches of multi_pop (so C39_compact_partial and
    push_limit apply to each); the last one, if there is one, holds all records that were left when multi_pop found
    nothing. *)
Theorem C57_compact_partial : forall esc o cs rs p n ms p', po_ncompact o = true -> po_sep o <> [] ->
  zlen (esc (po_sep o)) <= zlen (esc sep0) ->
  (forall s, zlen s <= zlen (esc s)) -> (forall s, Forall (fun c => is_digit c = true \/ c = "~"%char) s -> esc s = s) ->
  pk_run esc (pk_new o true) cs = Some (rs, p) -> pk_pushout esc p = Some (n, ms, p') ->
  exists bs, length bs = n /\
    Forall (fun b => ((length (mp_legend b) <= 10)%nat -> (forall x, In x (mp_legend b) -> zlen (esc x) <= zlen x + 1) -> zlen (mpush_text esc (po_jcompact o) b) <= po_json o) /\
                     (0 < po_push o -> 1 <= zlen (mp_data b) <= po_push o)) bs /\
    (ms = bs \/ exists left rest, ms = bs ++ [left] /\ compact (mk_mpush sep0 [] rest) = Some (true, left) /\ rest <> [] /\ hidden esc o rest).
Proof.
  intros esc o cs rs p n ms p' N S Hs H1 H2 H Q. assert (Ho : opts_ok o) by (unfold opts_ok; auto). apply reach_inv in H; [|exact Ho].
  destruct (pushout_batches esc o (fun b => ((length (mp_legend b) <= 10)%nat -> (forall x, In x (mp_legend b) -> zlen (esc x) <= zlen x + 1) -> zlen (mpush_text esc (po_jcompact o) b) <= po_json o) /\
                     (0 < po_push o -> 1 <= zlen (mp_data b) <= po_push o)) Ho)
    with (p := p) (n := n) (ms := ms) (p' := p') as (bs & A & B & C); auto.
  { intros q m q' I E. split; [intros L G; exact (json_limit_compact esc o true q m q' Ho I N Hs H1 H2 E L G)|].
    intros Hp. assert (EO : pk_opt q = o) by apply I. rewrite <- EO in *. exact (multi_pop_push_limit esc q m q' Hp E). }
  exists bs. split; [exact B|]. split; [exact A|]. destruct C as [C|(left & p0 & C & I0 & Sn & (q & Iq & Eq) & K)]; [auto|].
  right. exists left, (stored p0). split; [exact C|]. split; [exact K|]. split; [exact Sn|].
  destruct (multi_pop_inv esc o true q Ho Iq) as (b & p1 & E & _ & P). rewrite Eq in E. injection E as <- <-.
  assert (NE : stored q <> []) by (intros Z0; rewrite Z0 in P; apply Permutation_nil in P; congruence).
  destruct (nothing_hidden esc o true q p0 Ho Iq N NE Eq) as [X|[X|(r & (X & Y & Z) & W)]]; [left; exact X| |].
  - right. left. eapply Permutation_Forall; [exact P|exact X].
  - right. right. exists r. split; [|exact W]. split; [eapply Permutation_in; [exact P|exact X]|]. split; [exact Y|].
    intros x Ix. apply Z. eapply Permutation_in; [apply Permutation_sym; exact P|exact Ix].
Qed.
Print Assumptions C57_compact_partial.
Example C57_compact_witness : exists rs p ms p', pk_run esc_std (pk_new (mk_popts 0 0 210 false sep0 true) true)
    [PMulti [px "a_quite_long_counter_name_with_a_long_legend_entry" []; px "a" []; px "b~~a" []]] = Some (rs, p) /\
  pk_pushout esc_std p = Some (1%nat, ms, p') /\ map (fun b => length (mp_data b)) ms = [1; 2]%nat /\
  exists rs2 p2 ms2 p2', pk_run esc_std (pk_new (mk_popts 0 0 260 false sep0 true) true)
    [PMulti [px "a_quite_long_counter_name_with_a_long_legend_entry" []; px "a" []; px "b~~a" []]] = Some (rs2, p2) /\
  pk_pushout esc_std p2 = Some (3%nat, ms2, p2') /\ map (fun b => length (mp_data b)) ms2 = [1; 1; 1]%nat.
Proof. eexists _, _, _, _. split; [vm_compute; reflexivity|]. split; [vm_compute; reflexivity|]. split; [vm_compute; reflexivity|]. eexists _, _, _, _. split; [vm_compute; reflexivity|]. split; vm_compute; reflexivity. Qed.
