(** Property C39 with the full account: by how much a batch can exceed json_limit.  wrtstat/multi_packer/basic_packer.cpp. *)
From Coq Require Import String Ascii ZArith NArith List Bool Permutation Lia.
From Verif Require Import Base ModelTypes ModelRegistry ModelJson ModelPacker SpecPacker PackName PackerProofs PackerSize PackerMore PropsPacker.
Import ListNotations.
Local Open Scope Z_scope.
Local Open Scope list_scope.

(** The digits of a compact name beyond one per index: "12~3~145" has 3. *)
Definition extra_digits (s : name) : Z := zlen (filter is_digit s) - (1 + zlen (filter (fun c => negb (is_digit c)) s)).
(** By how much escaping lengthens a legend entry beyond one character. *)
Definition extra_escape (esc : name -> name) (n : name) : Z := Z.max 0 (zlen (esc n) - zlen n - 1).
Definition total_of {A} (f : A -> Z) (l : list A) : Z := fold_right (fun x s => f x + s) 0 l.
(** By how much the separator is longer than the one the empty batch was measured with. *)
Definition extra_sep (esc : name -> name) (o : popts) : Z := zlen (esc (po_sep o)) - zlen (esc sep0).

(** Compaction writes one index per part, separated by '~'. *)
Lemma filter_app' {A} (f : A -> bool) (a b : list A) : filter f (a ++ b) = filter f a ++ filter f b.
Proof. induction a as [|x a IH]; simpl; [reflexivity|]. destruct (f x); simpl; congruence. Qed.
Lemma dec_no_tilde k : zlen (filter (fun c => negb (is_digit c)) (dec k)) = 0.
Proof. pose proof (dec_digits k) as H. induction H as [|c l D H IH]; [reflexivity|]. cbn [filter]. rewrite D. exact IH. Qed.
Lemma split_len (s : name) : zlen s = zlen (filter is_digit s) + zlen (filter (fun c => negb (is_digit c)) s).
Proof. induction s as [|c s IH]; [reflexivity|]. cbn [filter]. destruct (is_digit c); cbn [negb]; rewrite !zlen_cons; lia. Qed.
Lemma compact_loop_tildes sep : forall fuel rest legend out out' legend',
  compact_loop fuel sep rest legend out = Some (out', legend') ->
  zlen (filter (fun c => negb (is_digit c)) out') + 1 = zlen (filter (fun c => negb (is_digit c)) out) + Z.of_nat (length (pieces fuel sep rest)).
Proof.
  induction fuel as [|fuel IH]; intros rest legend out out' legend' H; [discriminate|]. simpl in *.
  destruct (find_sub sep rest) as [pos|].
  - destruct (findorcre (firstn pos rest) legend) as [k lg]. apply IH in H. rewrite H, !filter_app', !zlen_app, dec_no_tilde.
    cbn [length]. change (zlen (filter (fun c => negb (is_digit c)) ["~"%char])) with 1. lia.
  - destruct (findorcre rest legend) as [k lg]. injection H as <- <-. rewrite filter_app', zlen_app, dec_no_tilde. simpl. lia.
Qed.
Lemma compact_data_extra sep : sep <> [] -> forall l legend l' legend', compact_data sep l legend = Some (l', legend') ->
  Forall2 (fun r r' => pu_data r' = pu_data r /\ Forall compact_char (pu_name r') /\
    zlen (pu_name r') + 1 = 2 * Z.of_nat (length (pieces (S (length (pu_name r))) sep (pu_name r))) + extra_digits (pu_name r')) l l'.
Proof.
  intros Hs. induction l as [|r l IH]; intros legend l' legend' H; simpl in H.
  - injection H as <- <-. constructor.
  - destruct (compact_name (pu_name r) legend sep) as [[n lg]|] eqn:E; [|discriminate].
    destruct (compact_data sep l lg) as [[t lg2]|] eqn:F; [|discriminate]. injection H as <- <-. constructor; [|eapply IH, F].
    cbn [pu_data pu_name]. split; [reflexivity|]. unfold compact_name in E. pose proof (compact_loop_tildes _ _ _ _ _ _ _ E) as T.
    apply (compact_loop_pieces (fun s => s)) in E; [|exact Hs]. destruct E as (_ & _ & _ & D & _). split; [apply D; constructor|].
    unfold extra_digits. rewrite (split_len n). change (zlen (filter (fun c => negb (is_digit c)) [])) with 0 in T. lia.
Qed.
Lemma extra_digits_nonneg sep : sep <> [] -> forall l legend l' legend', compact_data sep l legend = Some (l', legend') ->
  Forall (fun r => 0 <= extra_digits (pu_name r)) l'.
Proof.
  intros Hs. induction l as [|r l IH]; intros legend l' legend' H; simpl in H.
  - injection H as <- <-. constructor.
  - destruct (compact_name (pu_name r) legend sep) as [[n lg]|] eqn:E; [|discriminate].
    destruct (compact_data sep l lg) as [[t lg2]|] eqn:F; [|discriminate]. injection H as <- <-. constructor; [|eapply IH, F].
    cbn [pu_name]. unfold compact_name in E. pose proof (compact_loop_tildes _ _ _ _ _ _ _ E) as T.
    apply (compact_loop_pieces (fun s => s)) in E; [|exact Hs]. destruct E as (_ & _ & _ & _ & L & _).
    unfold extra_digits. pose proof (split_len n). change (zlen (filter (fun c => negb (is_digit c)) [])) with 0 in T. unfold zlen in *. simpl in L, T. lia.
Qed.

Lemma total_of_cons {A} (f : A -> Z) x l : total_of f (x :: l) = f x + total_of f l.
Proof. reflexivity. Qed.
Section Bound.
  Variable esc : name -> name.
  Lemma legend_excess lg : legend_len esc lg <= weight lg + total_of (extra_escape esc) lg.
  Proof.
    unfold legend_len, weight, clen. rewrite zlen_map. destruct lg as [|n lg]; [unfold zlen, zsum; simpl; lia|]. rewrite zlen_cons.
    unfold zsum. rewrite total_of_cons. cbn [map fold_right].
    assert (G : fold_right Z.add 0 (map (fun n => zlen (esc n) + 2) lg) + zlen lg <= fold_right Z.add 0 (map (fun n => zlen n + 4) lg) + total_of (extra_escape esc) lg).
    { clear n. induction lg as [|x lg IH]; [unfold zlen; simpl; lia|]. rewrite zlen_cons, total_of_cons. cbn [map fold_right]. unfold extra_escape at 1. lia. }
    pose proof (zlen_nonneg _ lg). unfold extra_escape at 1. lia.
  Qed.
  Lemma plain_excess : forall o h p m p', opts_ok o -> PInv esc o h p -> po_ncompact o = false -> pk_multi_pop esc p = Some (Some m, p') ->
    mpush_size esc (po_jcompact o) m <= po_json o + extra_sep esc o.
  Proof.
    intros o h p m p' Ho I N H. destruct (multi_pop_loop esc o h p m p' Ho I H) as (res & seen & _ & (_ & C & _) & T & M).
    rewrite N in M. subst m. rewrite (C N) in T. rewrite mpush_size_eq. cbn [mp_sep mp_legend mp_data].
    unfold total in T. change (weight []) with 0 in T. change (legend_len esc []) with 0. unfold extra_sep.
    replace (map (push_size esc (po_jcompact o)) res) with (map (accounted esc o) res); [lia|].
    apply map_ext. intros r. unfold accounted. rewrite N. unfold push_size. lia.
  Qed.
  Lemma compact_excess : forall o h p m p', opts_ok o -> PInv esc o h p -> po_ncompact o = true ->
    (forall s, zlen s <= zlen (esc s)) -> (forall s, Forall compact_char s -> esc s = s) -> pk_multi_pop esc p = Some (Some m, p') ->
    Forall (fun r => 0 <= extra_digits (pu_name r)) (mp_data m) /\
    mpush_size esc (po_jcompact o) m <= po_json o + extra_sep esc o + total_of (fun r => extra_digits (pu_name r)) (mp_data m) + total_of (extra_escape esc) (mp_legend m).
  Proof.
    intros o h p m p' Ho I N Hge Hid H.
    destruct (multi_pop_loop esc o h p m p' Ho I H) as (res & seen & _ & (C1 & _ & C3) & T & M). rewrite N in M. destruct M as (b & M).
    specialize (Ho N). unfold compact in M. cbn [mp_sep mp_legend mp_data] in M. destruct (po_sep o) as [|c s] eqn:Sp; [congruence|].
    rewrite <- Sp in *. clear Sp c s.
    destruct (compact_data (po_sep o) res []) as [[d lg]|] eqn:E; [|discriminate]. injection M as <- <-. cbn [mp_legend mp_data].
    split; [eapply extra_digits_nonneg; [exact Ho|exact E]|].
    rewrite mpush_size_eq. cbn [mp_sep mp_legend mp_data]. pose proof (compact_data_extra _ Ho _ _ _ _ E) as D4.
    apply (compact_data_pieces esc) in E; [|exact Ho]. destruct E as (D1 & D2 & _ & _).
    assert (ND : NoDup lg) by (apply D1; constructor).
    assert (Inc : incl lg seen).
    { intros x Hx. destruct (D2 x Hx) as [[]|(r & Hr & Hp)]. destruct (C3 N r Hr) as (n & lg1 & E1 & X). apply X.
      unfold compact_name in E1. apply (compact_loop_pieces esc) in E1; [|exact Ho]. apply E1. auto. }
    pose proof (legend_excess lg) as A1. pose proof (weight_incl lg seen ND Inc) as A2.
    assert (A3 : clen (map (push_size esc (po_jcompact o)) d) <= clen (map (accounted esc o) res) + total_of (fun r => extra_digits (pu_name r)) d).
    { clear -D4 Hge Hid N Ho C3.
      assert (L : zlen (map (push_size esc (po_jcompact o)) d) = zlen (map (accounted esc o) res)).
      { rewrite !zlen_map. unfold zlen. f_equal. clear -D4. induction D4; simpl; congruence. }
      unfold clen. rewrite L.
      assert (S : zsum (map (push_size esc (po_jcompact o)) d) <= zsum (map (accounted esc o) res) + total_of (fun r => extra_digits (pu_name r)) d); [|lia]. clear L.
      assert (C : forall r, In r res -> exists n lg, compact_name (pu_name r) [] (po_sep o) = Some (n, lg)).
      { intros r Hr. destruct (C3 N r Hr) as (n & lg & E & _). eauto. } clear C3.
      induction D4 as [|r r' res d (Q1 & Q2 & Q3) F IH]; [simpl; lia|]. rewrite total_of_cons. unfold zsum in *. cbn [map fold_right].
      assert (X : push_size esc (po_jcompact o) r' <= accounted esc o r + extra_digits (pu_name r')).
      { destruct (C r (or_introl eq_refl)) as (n & lg & E). rewrite (compact_alone_diff esc o r n lg N E Ho).
        destruct r' as [nm dt]. simpl in Q1. subst dt. cbn [pu_name] in *. rewrite push_size_name. rewrite (Hid nm Q2).
        specialize (Hge (pu_name r)). unfold compact_name in E. apply (compact_loop_pieces esc) in E; [|exact Ho].
        destruct E as (_ & _ & _ & _ & E & _). change (length (@nil ascii)) with 0%nat in E. unfold zlen in *. change (list ascii) with name in *. lia. }
      specialize (IH (fun r0 H => C r0 (or_intror H))). lia. }
    unfold total in T. unfold extra_sep. lia.
  Qed.
End Bound.

(** Without name compaction a batch exceeds json_limit at most by what the separator is longer than the default one. *)
Theorem C39_plain_excess : forall esc o h cs rs p m p', po_ncompact o = false ->
  pk_run esc (pk_new o h) cs = Some (rs, p) -> pk_multi_pop esc p = Some (Some m, p') ->
  zlen (mpush_text esc (po_jcompact o) m) <= po_json o + extra_sep esc o.
Proof.
  intros esc o h cs rs p m p' N H Q. assert (Ho : opts_ok o) by (unfold opts_ok; congruence).
  apply reach_inv in H; [|exact Ho]. exact (plain_excess esc o h p m p' Ho H N Q).
Qed.
Print Assumptions C39_plain_excess.

(** With it, whatever the number of name parts, additionally by the second, third, ... digits of the indices in its names and by the
    characters beyond one that escaping adds to a legend entry. *)
Theorem C39_compact_excess : forall esc o h cs rs p m p', po_ncompact o = true -> po_sep o <> [] ->
  (forall s, zlen s <= zlen (esc s)) -> (forall s, Forall (fun c => is_digit c = true \/ c = "~"%char) s -> esc s = s) ->
  pk_run esc (pk_new o h) cs = Some (rs, p) -> pk_multi_pop esc p = Some (Some m, p') ->
  Forall (fun r => 0 <= extra_digits (pu_name r)) (mp_data m) /\
  zlen (mpush_text esc (po_jcompact o) m) <=
    po_json o + extra_sep esc o + total_of (fun r => extra_digits (pu_name r)) (mp_data m) + total_of (extra_escape esc) (mp_legend m).
Proof.
  intros esc o h cs rs p m p' N Hn H1 H2 H Q. assert (Ho : opts_ok o) by (unfold opts_ok; auto).
  apply reach_inv in H; [|exact Ho]. exact (compact_excess esc o h p m p' Ho H N H1 H2 Q).
Qed.
Print Assumptions C39_compact_excess.

(** The batch of C39_compact_refuted (870 allowed, 880 delivered): 28 digits more than one per index. *)
Example C39_excess_witness : exists rs p m p', pk_run esc_std (pk_new (mk_popts 0 0 870 true sep0 true) true) [PMulti px_many] = Some (rs, p) /\
  pk_multi_pop esc_std p = Some (Some m, p') /\ zlen (mpush_text esc_std true m) = 880 /\
  total_of (fun r => extra_digits (pu_name r)) (mp_data m) = 28 /\ total_of (extra_escape esc_std) (mp_legend m) = 0.
Proof. eexists _, _, _, _. split; [vm_compute; reflexivity|]. split; [vm_compute; reflexivity|]. vm_compute. auto. Qed.
(** The batch of C39_separator_refuted: 180 allowed, 194 delivered, the separator 22 characters longer than the default one. *)
Example C39_plain_excess_witness : exists rs p m p',
  pk_run esc_std (pk_new (mk_popts 0 0 180 false (str "~~separator~~separator~~") false) true) [PPush (px "abc" [1; 2; 3])] = Some (rs, p) /\
  pk_multi_pop esc_std p = Some (Some m, p') /\ zlen (mpush_text esc_std false m) = 194 /\ extra_sep esc_std (mk_popts 0 0 180 false (str "~~separator~~separator~~") false) = 22.
Proof. eexists _, _, _, _. split; [vm_compute; reflexivity|]. split; [vm_compute; reflexivity|]. vm_compute. auto. Qed.
