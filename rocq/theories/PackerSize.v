(** The JSON size of the batches returned by multi_pop. *)
From Coq Require Import Ascii ZArith NArith List Bool Lia Permutation Sorted.
From Verif Require Import Base ModelTypes ModelRegistry ModelJson ModelPacker SpecPacker PackName PackerProofs.
Import ListNotations.
Local Open Scope Z_scope.
Local Open Scope list_scope.

Definition zsum (l : list Z) : Z := fold_right Z.add 0 l.
(** length of a comma separated list of items of these lengths *)
Definition clen (l : list Z) : Z := zsum l + Z.max 0 (zlen l - 1).
Lemma zsum_app : forall a b, zsum (a ++ b) = zsum a + zsum b.
Proof. induction a as [|x a IH]; intros b; simpl; [lia|]. unfold zsum in *. simpl. rewrite IH. lia. Qed.
Lemma zlen_app : forall (A : Type) (a b : list A), zlen (a ++ b) = zlen a + zlen b.
Proof. intros. unfold zlen. rewrite app_length. lia. Qed.
Lemma zlen_cons : forall (A : Type) (x : A) l, zlen (x :: l) = 1 + zlen l.
Proof. intros. unfold zlen. simpl length. lia. Qed.
Lemma zlen_map : forall (A B : Type) (f : A -> B) l, zlen (map f l) = zlen l.
Proof. intros. unfold zlen. now rewrite map_length. Qed.
Lemma zlen_nonneg : forall (A : Type) (l : list A), 0 <= zlen l.
Proof. intros. unfold zlen. lia. Qed.
Lemma zlen_nil : forall (A : Type), zlen (@nil A) = 0.
Proof. reflexivity. Qed.

Lemma commas_len : forall l, zlen (commas l) = clen (map zlen l).
Proof.
  induction l as [|x l IH]; [reflexivity|]. destruct l as [|y l].
  - unfold clen. cbn [map commas]. rewrite zlen_cons, zlen_nil. unfold zsum. simpl. lia.
  - change (commas (x :: y :: l)) with (x ++ ","%char :: commas (y :: l)). rewrite zlen_app, zlen_cons, IH.
    unfold clen. rewrite !map_cons, !zlen_cons. unfold zsum. cbn [fold_right].
    rewrite zlen_map. change (list ascii) with name. pose proof (zlen_nonneg name l). lia.
Qed.

Section Esc.
  Variable esc : name -> name.

  Definition legend_len (lg : list name) : Z := clen (map (fun n => zlen (esc n) + 2) lg).
  Lemma legend_print : forall lg, zlen (commas (map (jprint esc) (map JStr lg))) = legend_len lg.
  Proof.
    intros. rewrite commas_len, !map_map. unfold legend_len. f_equal. apply map_ext. intros n. cbn [jprint].
    rewrite zlen_cons, zlen_app, zlen_cons, zlen_nil. lia.
  Qed.

  Lemma mpush_size_eq : forall c m, mpush_size esc c m =
    mpush_size esc c mpush0 + (zlen (esc (mp_sep m)) - zlen (esc sep0)) + legend_len (mp_legend m) +
    clen (map (push_size esc c) (mp_data m)).
  Proof.
    intros c m. unfold mpush_size, mpush_text. destruct c.
    - cbn [jmpush_compact jprint map mp_sep mp_legend mp_data mpush0 commas app].
      repeat (rewrite ?zlen_app, ?zlen_cons, ?zlen_nil). rewrite legend_print, commas_len, !map_map.
      unfold push_size, push_text. lia.
    - cbn [jmpush jprint map mp_sep mp_legend mp_data mpush0 commas app fst snd].
      repeat (rewrite ?zlen_app, ?zlen_cons, ?zlen_nil). rewrite legend_print, commas_len, !map_map.
      unfold push_size, push_text. lia.
  Qed.

  Lemma push_size_name : forall c r n, push_size esc c (mk_push n (pu_data r)) = push_size esc c r - zlen (esc (pu_name r)) + zlen (esc n).
  Proof.
    intros c r n. unfold push_size, push_text. destruct c.
    - unfold jpush_compact. cbn [jprint map pu_data pu_name commas].
      repeat (rewrite ?zlen_app, ?zlen_cons, ?zlen_nil). lia.
    - unfold jpush. cbn [jprint map pu_data pu_name commas fst snd].
      repeat (rewrite ?zlen_app, ?zlen_cons, ?zlen_nil). lia.
  Qed.

  Lemma empty_size_pos : forall c, 0 < mpush_size esc c mpush0.
  Proof.
    intros c. unfold mpush_size, mpush_text. destruct c; cbn [jmpush_compact jmpush jprint]; rewrite zlen_cons;
      match goal with |- context [zlen ?l] => pose proof (zlen_nonneg _ l) end; lia.
  Qed.

  (** the charges for the legend *)
  Definition weight (lg : list name) : Z := zsum (map (fun n => zlen n + 4) lg).
  Lemma charge_spec : forall lg seen cur cur' seen', charge lg seen cur = (cur', seen') ->
    cur' = cur + (weight seen' - weight seen) /\ (NoDup seen -> NoDup seen') /\ incl seen seen' /\ incl lg seen' /\ weight seen <= weight seen' /\ (lg = [] -> seen' = seen).
  Proof.
    induction lg as [|n lg IH]; intros seen cur cur' seen' H; simpl in H.
    - injection H as <- <-. repeat split; auto; try lia; [intros x; auto|intros x []].
    - destruct (existsb (name_eqb n) seen) eqn:E.
      + apply IH in H. destruct H as (A & B & C & D & F & _). repeat split; auto; try discriminate. intros x [<-|Hx]; auto. apply C.
        apply existsb_exists in E. destruct E as (y & Hy & E). apply name_eqb_eq in E. now subst.
      + apply IH in H. destruct H as (A & B & C & D & F & _).
        assert (W : weight (n :: seen) = zlen n + 4 + weight seen) by reflexivity. pose proof (zlen_nonneg _ n).
        split; [lia|]. split.
        * intros N. apply B. constructor; auto. intros I. rewrite <- not_true_iff_false in E. apply E.
          apply existsb_exists. exists n. split; auto. apply name_eqb_refl.
        * split; [intros x Hx; apply C; simpl; auto|]. split; [|split; [lia|discriminate]]. intros x [<-|Hx]; [apply C; simpl; auto|apply D; auto].
  Qed.
  Lemma weight_incl : forall a b, NoDup a -> incl a b -> weight a <= weight b.
  Proof.
    induction a as [|x a IH]; intros b N I.
    - unfold weight. simpl. clear. induction b as [|y b IH]; simpl; [lia|]. unfold zsum in *. simpl. pose proof (zlen_nonneg _ y). lia.
    - inversion N; subst. destruct (in_split x b) as (b1 & b2 & ->); [apply I; simpl; auto|].
      assert (A : weight a <= weight (b1 ++ b2)).
      { apply IH; auto. intros y Hy. specialize (I y). simpl in I. rewrite in_app_iff in *. simpl in I.
        destruct I as [I|[I|I]]; auto. subst. contradiction. }
      unfold weight in *. rewrite map_app, zsum_app in *. simpl. unfold zsum in *. simpl. lia.
  Qed.

  (** the loop of multi_pop *)
  Definition total (o : popts) (res : list push) (seen : list name) : Z := clen (map (accounted esc o) res) + weight seen.
  Definition covered (o : popts) (res : list push) (seen : list name) : Prop :=
    NoDup seen /\ (po_ncompact o = false -> seen = []) /\
    (po_ncompact o = true -> forall r, In r res -> exists n lg, compact_name (pu_name r) [] (po_sep o) = Some (n, lg) /\ incl lg seen).

  Lemma clen_snoc : forall l x, clen (l ++ [x]) = clen l + x + match l with [] => 0 | _ => 1 end.
  Proof.
    intros l x. unfold clen. rewrite zsum_app, zlen_app. unfold zsum at 2. simpl. rewrite zlen_cons, zlen_nil.
    destruct l; [rewrite zlen_nil; unfold zsum; simpl; lia|]. rewrite zlen_cons. pose proof (zlen_nonneg _ l). lia.
  Qed.

  Lemma pop_loop_size : forall o h L, opts_ok o -> po_json o <> 0 -> forall fuel jl pl dl seen res p res' p',
    PInv esc o h p -> covered o res seen -> total o res seen <= L ->
    (0 < jl -> total o res seen + match res with [] => 0 | _ => 1 end + jl <= L) ->
    pop_loop esc fuel jl pl dl seen res p = Some (res', p') ->
    exists seen', covered o res' seen' /\ total o res' seen' <= L.
  Proof.
    intros o h L Ho HJ. induction fuel as [|fuel IH]; intros jl pl dl seen res p res' p' I C T J H; [discriminate|]. cbn [pop_loop] in H.
    assert (S0 : forall q, Some (res, q) = Some (res', p') -> exists seen', covered o res' seen' /\ total o res' seen' <= L) by (intros q E; injection E as <- <-; eauto).
    destruct (jl <=? 0) eqn:Z0; [eauto|]. apply Z.leb_gt in Z0. pose proof (pop_ok esc o h p jl I) as Q.
    destruct (pk_pop jl p) as [[t p1]|]; [|eauto]. destruct Q as (I1 & (Ts & Tl) & _).
    assert (EO : pk_opt p = o) by apply I. rewrite EO in H.
    destruct (charge (t_legend t) seen (t_size t)) as [cur seen'] eqn:Ch. apply charge_spec in Ch.
    destruct Ch as (Cc & Cn & Ci & Cl & Cw & Ce). destruct C as (C1 & C2 & C3).
    destruct (cur <=? jl) eqn:Z1.
    - apply Z.leb_le in Z1. specialize (J Z0).
      assert (C' : covered o (res ++ [t_rec t]) seen').
      { split; [auto|]. split.
        - intros N. rewrite N in Tl. rewrite (Ce Tl). auto.
        - intros N r Hr. apply in_app_or in Hr. destruct Hr as [Hr|[<-|[]]].
          + destruct (C3 N r Hr) as (n & lg & E & X). exists n, lg. split; [exact E|]. intros x Hx. apply Ci, X, Hx.
          + rewrite N in Tl. destruct Tl as (n & E). exists n, (t_legend t). auto. }
      assert (T' : total o (res ++ [t_rec t]) seen' = total o res seen + cur + match res with [] => 0 | _ => 1 end).
      { unfold total. rewrite map_app. cbn [map]. rewrite clen_snoc, <- Ts. destruct res; simpl; lia. }
      cbv zeta in H.
      assert (S1 : Some (res ++ [t_rec t], p1) = Some (res', p') -> exists seen', covered o res' seen' /\ total o res' seen' <= L).
      { intros E; injection E as <- <-. exists seen'. split; [exact C'|]. lia. }
      match goal with H : (if ?b then _ else _) = _ |- _ => destruct b end; [auto|].
      match goal with H : (if ?b then _ else _) = _ |- _ => destruct b end; [auto|].
      apply IH in H; auto; [lia|]. intros K. apply Z.eqb_neq in HJ. rewrite HJ in K.
      destruct (0 <? jl - cur) eqn:Z2; [apply Z.ltb_lt in Z2|apply Z.ltb_ge in Z2; lia].
      rewrite HJ. destruct (res ++ [t_rec t]) eqn:Y; [destruct res; discriminate|]. lia.
    - destruct (pk_push esc (t_rec t) p1); [|discriminate]. injection H as <- <-. exists seen. split; [split; auto|exact T].
  Qed.

  Lemma multi_pop_loop : forall o h p m p', opts_ok o -> PInv esc o h p -> pk_multi_pop esc p = Some (Some m, p') ->
    exists res seen, res <> [] /\ covered o res seen /\ mpush_size esc (po_jcompact o) mpush0 + total o res seen <= po_json o /\
      (if po_ncompact o then exists b, compact (mk_mpush (po_sep o) [] res) = Some (b, m) else m = mk_mpush (po_sep o) [] res).
  Proof.
    intros o h p m p' Ho I H. unfold pk_multi_pop in H. destruct (pk_top p) as [|t0 l0] eqn:E; [discriminate|]. rewrite <- E in H.
    assert (EO : pk_opt p = o) by apply I. rewrite EO in H.
    destruct (po_json o <? mpush_size esc (po_jcompact o) mpush0) eqn:Z0; [discriminate|]. apply Z.ltb_ge in Z0.
    pose proof (empty_size_pos (po_jcompact o)) as Ep.
    match goal with H : match ?x with _ => _ end = _ |- _ => destruct x as [[res p1]|] eqn:X; [|discriminate] end.
    apply (pop_loop_size o h (po_json o - mpush_size esc (po_jcompact o) mpush0) Ho) in X; try lia; auto.
    - destruct X as (seen & C & T). destruct res as [|r res]; [discriminate|]. exists (r :: res), seen.
      split; [discriminate|]. split; [exact C|]. split; [lia|].
      destruct (po_ncompact o); [destruct (compact _) as [[b mm]|]; [|discriminate]|]; injection H as <- <-; eauto.
    - split; [constructor|]. split; [auto|]. intros _ r [].
    - unfold total, weight, clen, zsum, zlen. simpl. lia.
    - intros _. unfold total, weight, clen, zsum, zlen. simpl. lia.
  Qed.

  (** C39 without name compaction *)
  Lemma json_limit_plain : forall o h p m p', opts_ok o -> PInv esc o h p -> po_ncompact o = false ->
    zlen (esc (po_sep o)) <= zlen (esc sep0) -> pk_multi_pop esc p = Some (Some m, p') ->
    mpush_size esc (po_jcompact o) m <= po_json o.
  Proof.
    intros o h p m p' Ho I N Hs H. destruct (multi_pop_loop o h p m p' Ho I H) as (res & seen & _ & (_ & C & _) & T & M).
    rewrite N in M. subst m. rewrite (C N) in T. rewrite mpush_size_eq. cbn [mp_sep mp_legend mp_data].
    unfold total in T. change (weight []) with 0 in T. change (legend_len []) with 0.
    replace (map (push_size esc (po_jcompact o)) res) with (map (accounted esc o) res); [lia|].
    apply map_ext. intros r. unfold accounted. rewrite N. unfold push_size. lia.
  Qed.

  (** C39 with name compaction and a small legend *)
  Fixpoint pieces (fuel : nat) (sep rest : name) : list name :=
    match fuel with
    | O => []
    | S fuel => match find_sub sep rest with
                | None => [rest]
                | Some pos => firstn pos rest :: pieces fuel sep (skipn (pos + length sep) rest)
                end
    end.
  Lemma findorcre_in : forall n l k l', findorcre n l = (k, l') -> (NoDup l -> NoDup l') /\ (forall x, In x l' <-> In x l \/ x = n).
  Proof.
    intros n l k l' H. unfold findorcre in H. destruct (find_pos n l) as [j|] eqn:E; injection H as <- <-.
    - split; [auto|]. intros x. split; [auto|]. intros [X|X]; [auto|subst x]. apply find_pos_some in E. destruct E as [A <-]. now apply nth_In.
    - apply find_pos_none in E. split.
      + intros N. rewrite <- (rev_involutive (l ++ [n])). apply NoDup_rev. rewrite rev_app_distr. simpl.
        constructor; [rewrite <- in_rev; exact E|]. now apply NoDup_rev.
      + intros x. rewrite in_app_iff. simpl. intuition.
  Qed.
  Lemma dec_small : forall k, (k < 10)%nat -> length (dec (N.of_nat k)) = 1%nat.
  Proof. intros k H. do 10 (destruct k as [|k]; [reflexivity|]). lia. Qed.
  Definition compact_char (c : ascii) : Prop := is_digit c = true \/ c = "~"%char.
  Lemma compact_loop_pieces : forall sep, sep <> [] -> forall fuel rest legend out out' legend',
    compact_loop fuel sep rest legend out = Some (out', legend') ->
    (NoDup legend -> NoDup legend') /\ (forall x, In x legend' <-> In x legend \/ In x (pieces fuel sep rest)) /\
    (length legend <= length legend')%nat /\ (Forall compact_char out -> Forall compact_char out') /\
    (length out + 2 * length (pieces fuel sep rest) <= length out' + 1)%nat /\
    ((length legend' <= 10)%nat -> (length out' + 1 = length out + 2 * length (pieces fuel sep rest))%nat).
  Proof.
    intros sep Hs. induction fuel as [|fuel IH]; intros rest legend out out' legend' H; [discriminate|]. simpl in *.
    destruct (find_sub sep rest) as [pos|] eqn:F.
    - destruct (findorcre (firstn pos rest) legend) as [k lg] eqn:G. apply IH in H. destruct H as (A & B & C & D & E & X).
      pose proof (findorcre_in _ _ _ _ G) as (N1 & N2). apply findorcre_spec in G. destruct G as ((e & -> & _) & Gk & _).
      rewrite !app_length in *. simpl in *. pose proof (dec_length_pos (N.of_nat k)).
      split; [auto|]. split.
      { intros x. rewrite B, N2. intuition. }
      split; [lia|]. split.
      { intros Q. apply D. apply Forall_app. split; auto. apply Forall_app. split; [|constructor; [right; reflexivity|constructor]].
        eapply Forall_impl; [|apply dec_digits]. intros; left; auto. }
      split; [lia|]. intros Q. specialize (X Q). rewrite dec_small in X by lia. lia.
    - destruct (findorcre rest legend) as [k lg] eqn:G. injection H as <- <-.
      pose proof (findorcre_in _ _ _ _ G) as (N1 & N2). apply findorcre_spec in G. destruct G as ((e & -> & _) & Gk & _).
      rewrite !app_length in *. simpl in *. pose proof (dec_length_pos (N.of_nat k)).
      split; [auto|]. split; [intros x; rewrite N2; intuition|]. split; [lia|]. split.
      { intros Q. apply Forall_app. split; auto. eapply Forall_impl; [|apply dec_digits]. intros; left; auto. }
      split; [lia|]. intros Q. rewrite dec_small by lia. lia.
  Qed.

  Lemma compact_data_pieces : forall sep, sep <> [] -> forall l legend l' legend', compact_data sep l legend = Some (l', legend') ->
    (NoDup legend -> NoDup legend') /\
    (forall x, In x legend' -> In x legend \/ exists r, In r l /\ In x (pieces (S (length (pu_name r))) sep (pu_name r))) /\
    (length legend <= length legend')%nat /\
    ((length legend' <= 10)%nat -> Forall2 (fun r r' => pu_data r' = pu_data r /\ Forall compact_char (pu_name r') /\
       (length (pu_name r') + 1 = 2 * length (pieces (S (length (pu_name r))) sep (pu_name r)))%nat) l l').
  Proof.
    intros sep Hs. induction l as [|r l IH]; intros legend l' legend' H; simpl in H.
    - injection H as <- <-. repeat split; auto.
    - destruct (compact_name (pu_name r) legend sep) as [[n lg]|] eqn:E; [|discriminate].
      destruct (compact_data sep l lg) as [[t lg2]|] eqn:F; [|discriminate]. injection H as <- <-.
      apply IH in F. destruct F as (A & B & C & D). unfold compact_name in E. apply compact_loop_pieces in E; [|exact Hs].
      destruct E as (A1 & B1 & C1 & D1 & E1 & F1). split; [auto|]. split; [|split; [lia|]].
      + intros x Hx. apply B in Hx. destruct Hx as [Hx|(r' & Hr & Hx)]; [|right; exists r'; simpl; auto].
        apply B1 in Hx. destruct Hx as [Hx|Hx]; [auto|]. right. exists r. cbn [In]. auto.
      + intros Q. constructor; [|auto]. cbn [pu_data pu_name]. split; [reflexivity|]. split; [apply D1; constructor|].
        specialize (F1 ltac:(lia)). simpl in F1 |- *. lia.
  Qed.

  Lemma json_limit_compact : forall o h p m p', opts_ok o -> PInv esc o h p -> po_ncompact o = true ->
    zlen (esc (po_sep o)) <= zlen (esc sep0) ->
    (forall s, zlen s <= zlen (esc s)) -> (forall s, Forall compact_char s -> esc s = s) ->
    pk_multi_pop esc p = Some (Some m, p') ->
    (length (mp_legend m) <= 10)%nat -> (forall n, In n (mp_legend m) -> zlen (esc n) <= zlen n + 1) ->
    mpush_size esc (po_jcompact o) m <= po_json o.
  Proof.
    intros o h p m p' Ho I N Hs Hge Hid H HL HE.
    destruct (multi_pop_loop o h p m p' Ho I H) as (res & seen & _ & (C1 & _ & C3) & T & M). rewrite N in M. destruct M as (b & M).
    specialize (Ho N). unfold compact in M. cbn [mp_sep mp_legend mp_data] in M. destruct (po_sep o) as [|c s] eqn:Sp; [congruence|].
    rewrite <- Sp in *. clear Sp c s.
    destruct (compact_data (po_sep o) res []) as [[d lg]|] eqn:E; [|discriminate]. injection M as <- <-. cbn [mp_legend] in *.
    rewrite mpush_size_eq. cbn [mp_sep mp_legend mp_data].
    apply compact_data_pieces in E; [|exact Ho]. destruct E as (D1 & D2 & _ & D4). specialize (D4 HL).
    assert (ND : NoDup lg) by (apply D1; constructor).
    assert (Inc : incl lg seen).
    { intros x Hx. destruct (D2 x Hx) as [[]|(r & Hr & Hp)]. destruct (C3 N r Hr) as (n & lg1 & E1 & X). apply X.
      unfold compact_name in E1. apply compact_loop_pieces in E1; [|exact Ho]. apply E1. auto. }
    assert (A1 : legend_len lg <= weight lg).
    { clear -HE. unfold legend_len, weight, clen. rewrite zlen_map. induction lg as [|n lg IH].
      - unfold zlen, zsum. simpl. lia.
      - assert (F : forall n, In n lg -> zlen (esc n) <= zlen n + 1) by (intros; apply HE; simpl; auto). specialize (IH F).
        specialize (HE n (or_introl eq_refl)). rewrite zlen_cons. unfold zsum in *. cbn [map fold_right].
        assert (G : fold_right Z.add 0 (map (fun n => zlen (esc n) + 2) lg) + zlen lg <= fold_right Z.add 0 (map (fun n => zlen n + 4) lg)).
        { clear -F. induction lg as [|x lg IH]; simpl; [unfold zlen; simpl; lia|]. rewrite zlen_cons.
          pose proof (F x (or_introl eq_refl)). assert (forall n, In n lg -> zlen (esc n) <= zlen n + 1) by (intros; apply F; simpl; auto). specialize (IH H0). lia. }
        pose proof (zlen_nonneg _ lg). change (list ascii) with name in *. lia. }
    pose proof (weight_incl lg seen ND Inc) as A2.
    assert (A3 : clen (map (push_size esc (po_jcompact o)) d) <= clen (map (accounted esc o) res)).
    { clear -D4 Hge Hid N Ho C3.
      assert (L : zlen (map (push_size esc (po_jcompact o)) d) = zlen (map (accounted esc o) res)).
      { rewrite !zlen_map. unfold zlen. f_equal. clear -D4. induction D4; simpl; congruence. }
      unfold clen. rewrite L.
      assert (S : zsum (map (push_size esc (po_jcompact o)) d) <= zsum (map (accounted esc o) res)); [|lia]. clear L.
      assert (C : forall r, In r res -> exists n lg, compact_name (pu_name r) [] (po_sep o) = Some (n, lg)).
      { intros r Hr. destruct (C3 N r Hr) as (n & lg & E & _). eauto. } clear C3.
      induction D4 as [|r r' res d (Q1 & Q2 & Q3) F IH]; simpl; [lia|]. unfold zsum in *. simpl.
      assert (X : push_size esc (po_jcompact o) r' <= accounted esc o r).
      { destruct (C r (or_introl eq_refl)) as (n & lg & E). rewrite (compact_alone_diff esc o r n lg N E Ho).
        destruct r' as [nm dt]. simpl in Q1. subst dt. cbn [pu_name] in *. rewrite push_size_name. rewrite (Hid nm Q2).
        specialize (Hge (pu_name r)). unfold compact_name in E. apply compact_loop_pieces in E; [|exact Ho].
        destruct E as (_ & _ & _ & _ & E & _). unfold zlen in *. simpl in E, Q3. lia. }
      specialize (IH (fun r0 H => C r0 (or_intror H))). lia. }
    unfold total in T. lia.
  Qed.
End Esc.
