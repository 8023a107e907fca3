(** The parser reads back what was written. *)
From Coq Require Import String Ascii ZArith NArith List Bool Lia Arith.
From Verif Require Import Base ModelTypes ModelRegistry ModelJson ModelPacker SpecPacker PackName ModelCodec SpecCodec.
Import ListNotations.
Local Open Scope Z_scope.
Local Open Scope list_scope.

Lemma p_str_quote rest : p_str (quote :: rest) = Some ([], rest).
Proof. reflexivity. Qed.
Lemma p_str_char c r : p_str (esc_char c ++ r) = match p_str r with Some (x, rest) => Some (c :: x, rest) | None => None end.
Proof. destruct c as [[] [] [] [] [] [] [] []]; reflexivity. Qed.
Lemma p_str_esc s rest : p_str (esc_std s ++ quote :: rest) = Some (s, rest).
Proof.
  induction s as [|c s IH]; [reflexivity|]. unfold esc_std in *. cbn [flat_map]. rewrite <- app_assoc, p_str_char, IH. reflexivity.
Qed.
Lemma esc_plain c : plain_char c = true -> esc_char c = [c].
Proof. destruct c as [[] [] [] [] [] [] [] []]; vm_compute; intros; try discriminate; reflexivity. Qed.
Lemma esc_std_plain k : forallb plain_char k = true -> esc_std k = k.
Proof.
  unfold esc_std. induction k as [|c k IH]; cbn [forallb flat_map]; intros H; [reflexivity|]. apply andb_prop in H. destruct H as [H1 H2].
  rewrite (esc_plain c H1), IH by exact H2. reflexivity.
Qed.
Lemma p_str_plain k rest : forallb plain_char k = true -> p_str (k ++ quote :: rest) = Some (k, rest).
Proof. intros H. rewrite <- (esc_std_plain k H) at 1. apply p_str_esc. Qed.

Lemma digit_range c : is_digit c = true -> is_space c = false /\ c <> "]"%char /\ c <> "}"%char /\ c <> quote /\ c <> "["%char /\ c <> "{"%char /\ c <> "t"%char /\ c <> "f"%char.
Proof. destruct c as [[] [] [] [] [] [] [] []]; vm_compute; intros H; try discriminate; repeat split; discriminate. Qed.

Definition headed (s : name) : Prop := exists c t, s = c :: t /\ is_space c = false /\ c <> "]"%char /\ c <> "}"%char.
Lemma dec_head n : exists c t, dec n = c :: t /\ is_digit c = true.
Proof.
  pose proof (dec_digits n) as D. destruct (dec n) as [|c t] eqn:E; [destruct (dec_not_nil n E)|]. inversion D. eauto.
Qed.
Lemma jprint_head esc j : headed (jprint esc j).
Proof.
  unfold headed. destruct j as [z|[]|s|l|l]; cbn [jprint].
  - unfold dec_Z. destruct (z <? 0).
    + eexists _, _. split; [reflexivity|]. repeat split; discriminate.
    + destruct (dec_head (Z.to_N z)) as (c & t & E & D). rewrite E. eexists _, _. split; [reflexivity|]. destruct (digit_range c D) as (A & B & C & _). auto.
  - eexists _, _. split; [reflexivity|]. repeat split; discriminate.
  - eexists _, _. split; [reflexivity|]. repeat split; discriminate.
  - eexists _, _. split; [reflexivity|]. repeat split; discriminate.
  - eexists _, _. split; [reflexivity|]. repeat split; discriminate.
  - eexists _, _. split; [reflexivity|]. repeat split; discriminate.
Qed.
Lemma skip_head s r : headed s -> skip_ws (s ++ r) = s ++ r.
Proof. intros (c & t & -> & H & _). cbn. now rewrite H. Qed.

Lemma p_num_dec z rest : no_digit rest -> p_num (dec_Z z ++ rest) = Some (JNum z, rest).
Proof.
  intros H. unfold dec_Z. destruct (Z.ltb_spec z 0) as [L|L].
  - destruct (dec_head (Z.to_N (- z))) as (c & t & E & D). cbn [app]. rewrite E. unfold p_num. change (is_digit "-") with false. change ((nat_of_ascii "-" =? 45)%nat) with true. cbv iota.
    cbn [app]. rewrite D. change (c :: t ++ rest) with ((c :: t) ++ rest). rewrite <- E. unfold dec. rewrite digits_text by exact H. rewrite DecimalN.Unsigned.of_to. repeat f_equal. lia.
  - destruct (dec_head (Z.to_N z)) as (c & t & E & D). rewrite E. unfold p_num. cbn [app]. rewrite D. change (c :: t ++ rest) with ((c :: t) ++ rest). rewrite <- E.
    unfold dec. rewrite digits_text by exact H. rewrite DecimalN.Unsigned.of_to. repeat f_equal. lia.
Qed.

Section Std.
  Let pr := jprint esc_std.
  Lemma commas_cons (x : name) l : l <> [] -> commas (x :: l) = x ++ ","%char :: commas l.
  Proof. destruct l; [congruence|reflexivity]. Qed.

  Lemma elems_ok v l : l <> [] -> (forall x rest, In x l -> no_digit rest -> v (pr x ++ rest) = Some (x, rest)) ->
    forall fuel rest, (length l <= fuel)%nat -> p_elems v fuel (commas (map pr l) ++ "]"%char :: rest) = Some (l, rest).
  Proof.
    induction l as [|x l IH]; intros N V fuel rest L; [congruence|]. destruct fuel as [|fuel]; [cbn in L; lia|]. cbn [p_elems].
    destruct l as [|y l].
    - cbn [map commas]. rewrite V; [reflexivity|left; reflexivity|reflexivity].
    - cbn [map]. rewrite commas_cons by discriminate. rewrite <- app_assoc. rewrite V; [|left; reflexivity|reflexivity]. cbn [app skip_ws is_space].
      change (is_space ",") with false. cbv iota. destruct (ascii_dec "," ",") as [_|E]; [|congruence].
      change (pr y :: map pr l) with (map pr (y :: l)). rewrite (IH ltac:(discriminate)); [reflexivity| |cbn in L |- *; lia]. intros z r I. apply V. right. exact I.
  Qed.
  Definition prm (p : name * json) : name := quote :: fst p ++ quote :: ":"%char :: pr (snd p).
  Lemma members_ok v l : l <> [] -> (forall k x rest, In (k, x) l -> no_digit rest -> v (pr x ++ rest) = Some (x, rest)) ->
    Forall (fun p => forallb plain_char (fst p) = true) l ->
    forall fuel rest, (length l <= fuel)%nat -> p_members v fuel (commas (map prm l) ++ "}"%char :: rest) = Some (l, rest).
  Proof.
    induction l as [|[k x] l IH]; intros N V K fuel rest L; [congruence|]. destruct fuel as [|fuel]; [cbn in L; lia|].
    inversion K as [|? ? K1 K2]; subst. cbn [fst] in K1.
    assert (STEP : forall r, p_members v (S fuel) (prm (k, x) ++ r) =
      match v (pr x ++ r) with None => None | Some (j, r2) =>
        match skip_ws r2 with c2 :: r3 => if ascii_dec c2 ","%char then match p_members v fuel r3 with Some (l, r4) => Some ((k, j) :: l, r4) | None => None end
            else if ascii_dec c2 "}"%char then Some ([(k, j)], r3) else None | [] => None end end).
    { intros r. cbn [p_members]. unfold prm. cbn [fst snd app skip_ws]. change (is_space quote) with false. cbv iota. destruct (ascii_dec quote quote) as [_|E]; [|congruence].
      rewrite <- app_assoc. cbn [app]. rewrite p_str_plain by exact K1. cbn [skip_ws]. change (is_space ":") with false. cbv iota. destruct (ascii_dec ":" ":") as [_|E]; [|congruence]. reflexivity. }
    destruct l as [|y l].
    - cbn [map commas]. rewrite STEP. rewrite (V k); [reflexivity|left; reflexivity|reflexivity].
    - cbn [map]. rewrite commas_cons by discriminate. rewrite <- app_assoc. rewrite STEP. rewrite (V k); [|left; reflexivity|reflexivity]. cbn [app skip_ws].
      change (is_space ",") with false. cbv iota. destruct (ascii_dec "," ",") as [_|E]; [|congruence].
      change (prm y :: map prm l) with (map prm (y :: l)). rewrite (IH ltac:(discriminate)); [reflexivity| |exact K2|cbn in L |- *; lia]. intros k' z r I. apply (V k'). right. exact I.
  Qed.
  Lemma commas_head l r : l <> [] -> Forall headed l -> headed (commas l ++ r).
  Proof.
    destruct l as [|x l]; [congruence|]. intros _ F. inversion F as [|? ? (c & t & -> & H) _]; subst. unfold headed. destruct l; cbn; eauto.
  Qed.
  Lemma commas_length l : Forall (fun x : name => x <> []) l -> (length l <= length (commas l))%nat.
  Proof.
    induction 1 as [|x l H F IH]; [cbn; lia|]. destruct l as [|y l]; [destruct x; [congruence|cbn; lia]|]. rewrite commas_cons by discriminate. rewrite app_length. cbn [length] in *. lia.
  Qed.
  Lemma commas_in x l : In x l -> (length x <= length (commas l))%nat.
  Proof.
    induction l as [|y l IH]; [intros []|]. intros I. destruct l as [|z l]; [destruct I as [<-|[]]; cbn; lia|]. rewrite commas_cons by discriminate. rewrite app_length. cbn [length].
    destruct I as [<-|I]; [lia|]. specialize (IH I). cbn [length] in *. lia.
  Qed.
  Lemma prm_head p : headed (prm p).
  Proof. unfold headed, prm. eexists _, _. split; [reflexivity|]. repeat split; discriminate. Qed.

  Lemma p_val_ok : forall fuel j rest, (length (pr j) <= fuel)%nat -> keys_plain j = true -> no_digit rest -> p_val fuel (pr j ++ rest) = Some (j, rest).
  Proof.
    induction fuel as [|fuel IH]; intros j rest L K ND.
    { destruct (jprint_head esc_std j) as (c & t & E & _). unfold pr in L. rewrite E in L. cbn in L. lia. }
    cbn [p_val]. rewrite skip_head by apply jprint_head. destruct j as [z|b|s|l|l].
    - unfold pr. cbn [jprint]. assert (X : exists c t, dec_Z z = c :: t /\ c <> quote /\ c <> "["%char /\ c <> "{"%char /\ c <> "t"%char /\ c <> "f"%char).
      { unfold dec_Z. destruct (z <? 0); [eexists _, _; split; [reflexivity|]; repeat split; discriminate|]. destruct (dec_head (Z.to_N z)) as (c & t & E & D). rewrite E.
        eexists _, _. split; [reflexivity|]. destruct (digit_range c D) as (_ & _ & _ & A). tauto. }
      destruct X as (c & t & E & N1 & N2 & N3 & N4 & N5). pose proof (p_num_dec z rest ND) as P. rewrite E in *. cbn [app] in *.
      repeat match goal with |- context [ascii_dec c ?x] => destruct (ascii_dec c x); [congruence|] end. exact P.
    - destruct b; reflexivity.
    - unfold pr. cbn [jprint app]. destruct (ascii_dec quote quote) as [_|E]; [|congruence]. rewrite <- app_assoc. cbn [app]. rewrite p_str_esc. reflexivity.
    - unfold pr in *. cbn [jprint app] in *. destruct (ascii_dec "[" quote) as [E|_]; [discriminate|]. destruct (ascii_dec "[" "[") as [_|E]; [|congruence]. rewrite <- app_assoc. cbn [app].
      destruct l as [|x l]; [reflexivity|]. assert (H : headed (commas (map (jprint esc_std) (x :: l)) ++ "]"%char :: rest)).
      { apply commas_head; [discriminate|]. apply Forall_map, Forall_forall. intros; apply jprint_head. }
      destruct H as (c & t & E & S & N1 & _). rewrite E. cbn [skip_ws]. rewrite S. destruct (ascii_dec c "]"); [congruence|]. rewrite <- E.
      rewrite (elems_ok (p_val fuel) (x :: l)); [reflexivity|discriminate| |].
      + intros y r I NR. apply IH; auto.
        * cbn [length] in L. rewrite app_length in L. pose proof (commas_in (pr y) (map pr (x :: l)) ltac:(apply in_map; exact I)). unfold pr in *. lia.
        * cbn [keys_plain] in K. rewrite forallb_forall in K. auto.
      + rewrite app_length. pose proof (commas_length (map (jprint esc_std) (x :: l))) as CL. rewrite map_length in CL. specialize (CL ltac:(apply Forall_map, Forall_forall; intros y _ EY; destruct (jprint_head esc_std y) as (? & ? & E' & _); congruence)). cbn [length] in *. lia.
    - unfold pr in *. cbn [jprint app] in *. destruct (ascii_dec "{" quote) as [E|_]; [discriminate|]. destruct (ascii_dec "{" "[") as [E|_]; [discriminate|]. destruct (ascii_dec "{" "{") as [_|E]; [|congruence]. rewrite <- app_assoc. cbn [app].
      destruct l as [|x l]; [reflexivity|]. match goal with |- context [map ?f (x :: l)] => change (map f (x :: l)) with (map prm (x :: l)) in * end.
      assert (H : headed (commas (map prm (x :: l)) ++ "}"%char :: rest)).
      { apply commas_head; [discriminate|]. apply Forall_map, Forall_forall. intros; apply prm_head. }
      destruct H as (c & t & E & S & _ & N1). rewrite E. cbn [skip_ws]. rewrite S. destruct (ascii_dec c "}"); [congruence|]. rewrite <- E.
      cbn [keys_plain] in K. rewrite forallb_forall in K.
      rewrite (members_ok (p_val fuel) (x :: l)); [reflexivity|discriminate| | |].
      + intros k y r I NR. apply IH; auto.
        * cbn [length] in L. rewrite app_length in L. pose proof (commas_in (prm (k, y)) (map prm (x :: l)) ltac:(apply in_map; exact I)) as C.
          replace (length (prm (k, y))) with (length k + length (pr y) + 3)%nat in C by (unfold prm; cbn [fst snd length]; rewrite app_length; cbn [length]; lia). cbn [length] in C. unfold pr in *. cbn [length] in *. lia.
        * specialize (K _ I). apply andb_prop in K. apply K.
      + apply Forall_forall. intros p I. specialize (K p I). apply andb_prop in K. apply K.
      + rewrite app_length. pose proof (commas_length (map prm (x :: l))) as CL. rewrite map_length in CL. specialize (CL ltac:(apply Forall_map, Forall_forall; intros y _ EY; discriminate)). eapply Nat.le_trans; [exact CL|apply Nat.le_add_r].
  Qed.
End Std.

Lemma parse_std_ok : wjson_ok esc_std parse_std.
Proof.
  intros j rest K ND. unfold parse_std. rewrite p_val_ok; auto. rewrite app_length. lia.
Qed.
