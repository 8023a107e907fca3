(** compact/recompact are inverse. *)
From Coq Require Import Ascii ZArith NArith List Bool Lia DecimalN.
From Verif Require Import Base ModelTypes ModelRegistry ModelJson ModelPacker SpecPacker.
Import ListNotations.
Local Open Scope Z_scope.
Local Open Scope list_scope.

Lemma name_eqb_eq : forall a b, name_eqb a b = true <-> a = b.
Proof. intros a b. unfold name_eqb. destruct (list_eq_dec ascii_dec a b); split; intros; auto; discriminate. Qed.
Lemma name_eqb_refl : forall a, name_eqb a a = true.
Proof. intros. apply name_eqb_eq. reflexivity. Qed.

(** decimal text *)
Lemma uint_text_digits : forall d, Forall (fun c => is_digit c = true) (uint_text d).
Proof. induction d; simpl; constructor; auto. Qed.
Lemma dec_digits : forall n, Forall (fun c => is_digit c = true) (dec n).
Proof. intros. apply uint_text_digits. Qed.
Lemma dec_not_nil : forall n, dec n <> [].
Proof.
  intros n. unfold dec. destruct n as [|p]; [discriminate|]. simpl.
  pose proof (DecimalPos.Unsigned.to_uint_nonnil p) as H. destruct (Pos.to_uint p); try discriminate. congruence.
Qed.
Lemma dec_head : forall n, exists c t, dec n = c :: t /\ is_digit c = true.
Proof.
  intros n. pose proof (dec_digits n). destruct (dec n) as [|c t] eqn:E; [destruct (dec_not_nil n E)|].
  inversion H; subst. eauto.
Qed.
Lemma dec_length_pos : forall n, (0 < length (dec n))%nat.
Proof. intros n. pose proof (dec_not_nil n). destruct (dec n); [congruence|simpl; lia]. Qed.

(** find_sub *)
Lemma is_prefix_spec : forall a b, is_prefix a b = true <-> exists t, b = a ++ t.
Proof.
  induction a as [|x a IH]; intros b; simpl.
  - split; [eauto|auto].
  - destruct b as [|y b]; [split; [discriminate|intros [t E]; discriminate]|].
    destruct (ascii_dec x y) as [->|N]; [rewrite IH; split; intros [t E]; exists t; [now rewrite E|now injection E]|].
    split; [discriminate|intros [t E]; injection E; congruence].
Qed.
Lemma find_sub_some : forall sep s k, find_sub sep s = Some k ->
  s = firstn k s ++ sep ++ skipn (k + length sep) s /\ (k + length sep <= length s)%nat.
Proof.
  intros sep. induction s as [|c s IH]; intros k H; simpl in H.
  - destruct (is_prefix sep []) eqn:E; [|discriminate]. injection H as <-.
    apply is_prefix_spec in E. destruct E as [t E]. destruct sep; [|discriminate]. auto.
  - destruct (is_prefix sep (c :: s)) eqn:E.
    + injection H as <-. apply is_prefix_spec in E. destruct E as [t E]. rewrite E. simpl.
      rewrite skipn_app, skipn_all, Nat.sub_diag. simpl. split; [reflexivity|rewrite app_length; lia].
    + destruct (find_sub sep s) as [k'|] eqn:F; [|discriminate]. injection H as <-.
      destruct (IH k' eq_refl) as [A B]. simpl. split; [f_equal; exact A|lia].
Qed.

(** findorcre *)
Lemma find_pos_some : forall n l k, find_pos n l = Some k -> (k < length l)%nat /\ nth k l [] = n.
Proof.
  induction l as [|x l IH]; intros k H; simpl in H; [discriminate|].
  destruct (name_eqb x n) eqn:E.
  - injection H as <-. apply name_eqb_eq in E. simpl. split; [lia|auto].
  - destruct (find_pos n l) as [k'|]; [|discriminate]. injection H as <-. destruct (IH k' eq_refl). simpl. split; [lia|auto].
Qed.
Lemma find_pos_none : forall n l, find_pos n l = None -> ~ In n l.
Proof.
  induction l as [|x l IH]; intros H I; simpl in *; [auto|].
  destruct (name_eqb x n) eqn:E; [discriminate|]. destruct (find_pos n l); [discriminate|].
  destruct I as [->|I]; [rewrite name_eqb_refl in E; discriminate|exact (IH eq_refl I)].
Qed.
Lemma findorcre_spec : forall n l k l', findorcre n l = (k, l') ->
  (exists e, l' = l ++ e /\ (length e <= 1)%nat) /\ (k < length l')%nat /\ nth k l' [] = n.
Proof.
  intros n l k l' H. unfold findorcre in H. destruct (find_pos n l) as [j|] eqn:E; injection H as <- <-.
  - apply find_pos_some in E. split; [exists []; rewrite app_nil_r; auto|exact E].
  - split; [eauto|]. rewrite app_length; simpl. split; [lia|]. rewrite app_nth2, Nat.sub_diag; auto.
Qed.

Section Parser.
  Variable jp : jparser.
  Hypothesis OK : jparser_ok jp.

  Lemma tilde_no_digit : forall s, no_digit ("~"%char :: s).
  Proof. reflexivity. Qed.

  (** one index of a compact name *)
  Lemma expand_index : forall fuel sep legend k rest out, (k < length legend)%nat -> zlen legend <= two64 -> no_digit rest ->
    expand_loop jp (S fuel) sep legend (dec (N.of_nat k) ++ rest) out =
    match rest with
    | [] => Some (out ++ nth k legend [])
    | c :: rest => if ascii_dec c "~"%char then expand_loop jp fuel sep legend rest ((out ++ nth k legend []) ++ sep) else None
    end.
  Proof.
    intros fuel sep legend k rest out Hk Hl Hr. simpl.
    destruct (jp_number _ OK (N.of_nat k) rest) as [A B]; [unfold zlen in Hl; lia|exact Hr|].
    destruct (dec (N.of_nat k) ++ rest) as [|c t] eqn:E.
    - exfalso. apply app_eq_nil in E. destruct E as [E _]. exact (dec_not_nil _ E).
    - rewrite A, B. simpl.
      replace (N.of_nat (length legend) <=? N.of_nat k)%N with false by (symmetry; apply N.leb_gt; lia).
      rewrite Nnat.Nat2N.id. reflexivity.
  Qed.

  Lemma loop_inverse : forall sep, sep <> [] -> forall fuel rest legend out out' legend',
    compact_loop fuel sep rest legend out = Some (out', legend') ->
    exists txt ext, out' = out ++ txt /\ legend' = legend ++ ext /\ (length ext <= length rest + 1)%nat /\ legend' <> [] /\
      forall more, zlen (legend' ++ more) <= two64 -> forall fuel2 o, (length txt < fuel2)%nat ->
        expand_loop jp fuel2 sep (legend' ++ more) txt o = Some (o ++ rest).
  Proof.
    intros sep Hsep. induction fuel as [|fuel IH]; intros rest legend out out' legend' H; [discriminate|]. simpl in H.
    destruct (find_sub sep rest) as [pos|] eqn:F.
    - destruct (findorcre (firstn pos rest) legend) as [k lg] eqn:G.
      apply findorcre_spec in G. destruct G as ((e & Le & Ee) & Gk & Gn).
      apply find_sub_some in F. destruct F as (Fs & Fl).
      destruct (IH _ _ _ _ _ H) as (txt & ext & -> & -> & El & NN & X).
      exists (dec (N.of_nat k) ++ "~"%char :: txt), (e ++ ext).
      split; [rewrite <- !app_assoc; reflexivity|]. split; [subst lg; now rewrite app_assoc|].
      split. { rewrite app_length. rewrite skipn_length in El. destruct sep; [congruence|]. simpl in *. lia. }
      split; [exact NN|]. intros more Hm fuel2 o Hf. destruct fuel2 as [|fuel2]; [lia|].
      rewrite expand_index; [|rewrite !app_length; lia|exact Hm|reflexivity].
      destruct (ascii_dec "~" "~"); [|congruence].
      rewrite X; [|exact Hm|]. 2:{ rewrite app_length in Hf. simpl in Hf. lia. }
      f_equal. rewrite <- app_assoc. rewrite app_nth1 by (rewrite app_length; lia). rewrite app_nth1 by lia. rewrite Gn.
      rewrite <- !app_assoc. f_equal. symmetry. exact Fs.
    - destruct (findorcre rest legend) as [k lg] eqn:G. injection H as <- <-.
      apply findorcre_spec in G. destruct G as ((e & -> & Ee) & Gk & Gn).
      exists (dec (N.of_nat k)), e. split; [reflexivity|]. split; [reflexivity|]. split; [lia|].
      split; [intros Q; rewrite Q in Gk; simpl in Gk; lia|]. intros more Hm fuel2 o Hf. destruct fuel2 as [|fuel2]; [lia|].
      rewrite <- (app_nil_r (dec _)). rewrite expand_index; [|rewrite !app_length in *; lia|exact Hm|exact I].
      rewrite app_nth1 by lia. now rewrite Gn.
  Qed.

  Lemma compact_loop_total : forall sep, sep <> [] -> forall fuel rest legend out, (length rest < fuel)%nat ->
    exists out' legend', compact_loop fuel sep rest legend out = Some (out', legend').
  Proof.
    intros sep Hsep. induction fuel as [|fuel IH]; intros rest legend out Hf; [lia|]. simpl.
    destruct (find_sub sep rest) as [pos|] eqn:F.
    - destruct (findorcre (firstn pos rest) legend) as [k lg]. apply find_sub_some in F.
      apply IH. rewrite skipn_length. destruct sep; [congruence|]. simpl in *. lia.
    - destruct (findorcre rest legend). eauto.
  Qed.

  Lemma compact_name_inverse : forall sep n legend, sep <> [] ->
    exists n' ext, compact_name n legend sep = Some (n', legend ++ ext) /\ (length ext <= length n + 1)%nat /\
      (forall more, zlen (legend ++ ext ++ more) <= two64 -> expand_name jp sep (legend ++ ext ++ more) n' = Some n) /\ legend ++ ext <> [].
  Proof.
    intros sep n legend Hsep. unfold compact_name.
    destruct (compact_loop_total sep Hsep (S (length n)) n legend []) as (n' & lg & E); [lia|].
    destruct (loop_inverse sep Hsep _ _ _ _ _ _ E) as (txt & ext & -> & -> & El & NN & X).
    exists ([] ++ txt), ext. split; [exact E|]. split; [exact El|]. split; [|exact NN]. intros more Hm. rewrite app_assoc in *.
    unfold expand_name. exact (X more Hm (S (length txt)) [] (Nat.lt_succ_diag_r _)).
  Qed.

  Lemma compact_data_inverse : forall sep, sep <> [] -> forall l legend,
    exists l' ext, compact_data sep l legend = Some (l', legend ++ ext) /\ zlen ext <= names_weight l /\
      map pu_data l' = map pu_data l /\
      forall more, zlen (legend ++ ext ++ more) <= two64 -> expand_data jp sep (legend ++ ext ++ more) l' = (true, l).
  Proof.
    intros sep Hsep. induction l as [|r l IH]; intros legend; simpl.
    - exists [], []. rewrite app_nil_r. repeat split; auto. unfold zlen; simpl; lia.
    - destruct (compact_name_inverse sep (pu_name r) legend Hsep) as (n' & e & -> & El & X & _).
      destruct (IH (legend ++ e)) as (l' & ext & -> & Ew & Ed & Y).
      eexists _, (e ++ ext). rewrite <- app_assoc. split; [reflexivity|].
      split. { unfold zlen in *. rewrite app_length. lia. }
      split; [simpl; now rewrite Ed|].
      intros more Hm. specialize (X (ext ++ more)). specialize (Y more). rewrite <- !app_assoc in *.
      simpl. rewrite X by exact Hm. rewrite Y by exact Hm. destruct r; reflexivity.
  Qed.

  (** C37 *)
  Lemma round_trip : forall m, mp_sep m <> [] -> zlen (mp_legend m) + names_weight (mp_data m) <= two64 ->
    exists m', compact m = Some (true, m') /\ mp_sep m' = mp_sep m /\ map pu_data (mp_data m') = map pu_data (mp_data m) /\
      recompact jp m' = (true, mk_mpush (mp_sep m) [] (mp_data m)).
  Proof.
    intros [sep legend l] Hs Hw. simpl in *. unfold compact. simpl.
    destruct (compact_data_inverse sep Hs l legend) as (l' & ext & E & Ew & Ed & X).
    assert (B : zlen (legend ++ ext ++ []) <= two64) by (rewrite app_nil_r; unfold zlen in *; rewrite app_length; lia).
    specialize (X [] B). rewrite app_nil_r in X.
    destruct sep as [|c sep]; [congruence|]. rewrite E. eexists. split; [reflexivity|]. split; [reflexivity|]. split; [exact Ed|].
    unfold recompact. cbn [mp_legend mp_sep mp_data]. destruct (legend ++ ext) as [|x y] eqn:L.
    - assert (l = []).
      { destruct l as [|r l]; auto. exfalso. simpl in E.
        destruct (compact_name_inverse (c :: sep) (pu_name r) legend Hs) as (n2 & e2 & G3 & _ & _ & NN). rewrite G3 in E.
        destruct (compact_data_inverse (c :: sep) Hs l (legend ++ e2)) as (l3 & e3 & G4 & _). rewrite G4 in E.
        injection E as _ E. apply app_eq_nil in E. tauto. }
      subst l. simpl in E. injection E as <- <-. reflexivity.
    - rewrite X. reflexivity.
  Qed.

  (** A batch without legend is not touched. *)
  Lemma recompact_plain : forall m, mp_legend m = [] -> recompact jp m = (true, m).
  Proof. intros [s lg d] H. simpl in H. subst. reflexivity. Qed.

  (** C44 *)
  Lemma expand_prefix : forall sep legend, zlen legend <= two64 -> forall pre, index_prefix (N.of_nat (length legend)) pre ->
    forall rest fuel out, exists fuel' out', (length pre + fuel <= fuel' + length pre)%nat /\
      expand_loop jp (length pre + fuel) sep legend (pre ++ rest) out = expand_loop jp fuel' sep legend rest out'.
  Proof.
    intros sep legend Hl pre H. induction H as [|k s Hk H IH]; intros rest fuel out.
    - exists fuel, out. split; [simpl; lia|reflexivity].
    - rewrite app_length. simpl length.
      replace (length (dec k) + S (length s) + fuel)%nat with (S (length s + (fuel + length (dec k))))%nat by lia.
      rewrite <- app_assoc. change (("~"%char :: s) ++ rest) with ("~"%char :: s ++ rest).
      rewrite <- (Nnat.N2Nat.id k). rewrite expand_index; [|lia|exact Hl|reflexivity].
      destruct (ascii_dec "~" "~"); [|congruence]. rewrite Nnat.N2Nat.id.
      destruct (IH rest (fuel + length (dec k))%nat ((out ++ nth (N.to_nat k) legend []) ++ sep)) as (f & o & A & B).
      rewrite B. exists f, o. split; [lia|reflexivity].
  Qed.

  Lemma malformed_fails : forall sep legend n, zlen legend <= two64 -> malformed (N.of_nat (length legend)) n ->
    expand_name jp sep legend n = None.
  Proof.
    intros sep legend n Hl H. unfold expand_name. inversion H as [pre k rest P Hk Hb Hn|pre c rest P D M|pre k c rest P Hk D M]; subst n.
    - rewrite app_length. rewrite plus_n_Sm.
      destruct (expand_prefix sep legend Hl pre P (dec k ++ rest) (S (length (dec k ++ rest))) []) as (f & o & A & ->).
      destruct f as [|f]; [reflexivity|]. destruct (jp_number _ OK k rest Hb Hn) as [X Y].
      cbn [expand_loop]. destruct (dec k ++ rest) as [|c t] eqn:E.
      + exfalso. apply app_eq_nil in E. exact (dec_not_nil _ (proj1 E)).
      + rewrite X, Y. simpl. replace (N.of_nat (length legend) <=? k)%N with true by (symmetry; apply N.leb_le; exact Hk). reflexivity.
    - rewrite app_length. rewrite plus_n_Sm.
      destruct (expand_prefix sep legend Hl pre P (c :: rest) (S (length (c :: rest))) []) as (f & o & A & ->).
      destruct f as [|f]; [reflexivity|]. cbn [expand_loop]. rewrite (jp_other _ OK c rest D M). reflexivity.
    - rewrite app_length. rewrite plus_n_Sm.
      destruct (expand_prefix sep legend Hl pre P (dec k ++ c :: rest) (S (length (dec k ++ c :: rest))) []) as (f & o & A & ->).
      destruct f as [|f]; [reflexivity|]. rewrite <- (Nnat.N2Nat.id k). rewrite expand_index; [|lia|exact Hl|exact D].
      destruct (ascii_dec c "~"); [congruence|reflexivity].
  Qed.

  Lemma well_formed_succeeds : forall sep legend n, zlen legend <= two64 -> well_formed (N.of_nat (length legend)) n ->
    exists n', expand_name jp sep legend n = Some n'.
  Proof.
    intros sep legend n Hl H. unfold expand_name. inversion H as [pre k P Hk|pre P]; subst.
    - rewrite app_length. rewrite plus_n_Sm.
      destruct (expand_prefix sep legend Hl pre P (dec k) (S (length (dec k))) []) as (f & o & A & ->).
      destruct f as [|f]; [lia|]. rewrite <- (app_nil_r (dec k)). rewrite <- (Nnat.N2Nat.id k).
      rewrite expand_index; [eauto|lia|exact Hl|exact I].
    - pose proof (expand_prefix sep legend Hl n P [] 1 []) as (f & o & A & B). rewrite app_nil_r in B.
      replace (length n + 1)%nat with (S (length n)) in B by lia. rewrite B. destruct f; [lia|]. simpl. eauto.
  Qed.

  Lemma expand_data_fail : forall sep legend l, fst (expand_data jp sep legend l) = false <->
    Exists (fun r => expand_name jp sep legend (pu_name r) = None) l.
  Proof.
    intros sep legend. induction l as [|r l IH]; simpl.
    - split; [discriminate|intros H; inversion H].
    - destruct (expand_name jp sep legend (pu_name r)) as [n|] eqn:E.
      + destruct (expand_data jp sep legend l) as [b t]. simpl in *. rewrite IH.
        split; intros H; [now apply Exists_cons_tl|inversion H; subst; [congruence|auto]].
      + split; auto.
  Qed.

  (** The state after a failure: the names before the first bad one are expanded, the rest is as it was. *)
  Lemma expand_data_split : forall sep legend l b d, expand_data jp sep legend l = (b, d) ->
    exists k, map pu_data d = map pu_data l /\ skipn k d = skipn k l /\
      (forall i, (i < k)%nat -> option_map (fun r => Some (pu_name r)) (nth_error d i) =
                                option_map (fun r => expand_name jp sep legend (pu_name r)) (nth_error l i)) /\
      (b = true -> k = length l) /\
      (b = false -> exists r, nth_error l k = Some r /\ expand_name jp sep legend (pu_name r) = None).
  Proof.
    intros sep legend. induction l as [|r l IH]; intros b d H; simpl in H.
    - injection H as <- <-. exists 0%nat. repeat split; auto; try discriminate. intros; lia.
    - destruct (expand_name jp sep legend (pu_name r)) as [n|] eqn:E.
      + destruct (expand_data jp sep legend l) as [b' t] eqn:F. injection H as <- <-.
        destruct (IH _ _ eq_refl) as (k & A & B & C & D & G). exists (S k).
        split; [simpl; now rewrite A|]. split; [exact B|]. split; [|split].
        * intros [|i] Hi; simpl; [now rewrite E|apply C; lia].
        * intros X. simpl. now rewrite (D X).
        * intros X. exact (G X).
      + injection H as <- <-. exists 0%nat. split; [reflexivity|]. split; [reflexivity|].
        split; [intros; lia|]. split; [discriminate|]. intros _. exists r. auto.
  Qed.

  (** fuel of expand_loop *)
  Lemma expand_fuel : forall sep legend n f1 f2 rest out, (length rest <= n)%nat -> (length rest < f1)%nat -> (length rest < f2)%nat ->
    expand_loop jp f1 sep legend rest out = expand_loop jp f2 sep legend rest out.
  Proof.
    intros sep legend. induction n as [|n IH]; intros f1 f2 rest out Hn H1 H2;
      destruct f1 as [|f1]; try lia; destruct f2 as [|f2]; try lia; destruct rest as [|c t]; try reflexivity.
    - simpl in Hn. lia.
    - cbn [expand_loop]. destruct (jp_isnum jp (c :: t)) eqn:E; [|reflexivity]. simpl negb. cbv iota.
      pose proof (jp_consumes _ OK _ E) as L. destruct (jp_int jp (c :: t)) as [pos r]. simpl in L.
      destruct (N.of_nat (length legend) <=? pos)%N; [reflexivity|]. destruct r as [|d r]; [reflexivity|].
      destruct (ascii_dec d "~"); [|reflexivity]. simpl in *. apply IH; lia.
  Qed.
End Parser.

(** the instance *)
Lemma digits_stop : forall acc rest, no_digit rest -> digits acc rest = (acc, rest).
Proof. intros acc [|c t] H; simpl in *; [reflexivity|]. now rewrite H. Qed.
Lemma digits_acc : forall d p rest, no_digit rest -> digits (Npos p) (uint_text d ++ rest) = (Npos (Pos.of_uint_acc d p), rest).
Proof.
  induction d; intros p rest H; [apply digits_stop; exact H|..]; cbn [uint_text app Pos.of_uint_acc digits];
    match goal with |- (if is_digit ?c then _ else _) = _ => change (is_digit c) with true end; cbv iota;
    match goal with |- digits ?a _ = (N.pos (Pos.of_uint_acc _ ?b), _) => replace a with (N.pos b); [apply IHd; exact H|] end;
    match goal with |- context [N.of_nat ?x] => let v := eval vm_compute in (N.of_nat x) in change (N.of_nat x) with v end; lia.
Qed.
Lemma digits_text : forall d rest, no_digit rest -> digits 0 (uint_text d ++ rest) = (N.of_uint d, rest).
Proof.
  induction d; intros rest H; [apply digits_stop; exact H|..]; cbn [uint_text app digits];
    match goal with |- (if is_digit ?c then _ else _) = _ => change (is_digit c) with true end; cbv iota.
  { exact (IHd rest H). }
  all: exact (digits_acc d _ rest H).
Qed.
Lemma digits_shorter : forall s acc, (length (snd (digits acc s)) <= length s)%nat.
Proof. induction s as [|c s IH]; intros acc; simpl; [lia|]. destruct (is_digit c); simpl; [specialize (IH (10 * acc + N.of_nat (nat_of_ascii c - 48))%N); simpl in IH; lia|lia]. Qed.
Lemma jp_std_ok : jparser_ok jp_std.
Proof.
  split.
  - intros n rest _ H. destruct (dec_head n) as (c & t & E & D).
    split.
    + simpl. rewrite E. simpl. now rewrite D.
    + pose proof (digits_text (N.to_uint n) rest H) as X. fold (dec n) in X. rewrite DecimalN.Unsigned.of_to in X.
      rewrite <- X. rewrite E. simpl. rewrite D. reflexivity.
  - intros c rest D M. simpl. rewrite D. simpl. apply Nat.eqb_neq. intros X. apply M.
    rewrite <- (ascii_nat_embedding c), X. reflexivity.
  - intros [|c s] H; simpl in *; [discriminate|]. destruct (is_digit c) eqn:D.
    + pose proof (digits_shorter s (N.of_nat (nat_of_ascii c - 48))) as L.
      match goal with |- (length (snd (digits ?a s)) < _)%nat => pose proof (digits_shorter s a) end. lia.
    + pose proof (digits_shorter s 0). destruct (digits 0 s). simpl in *. lia.
Qed.
