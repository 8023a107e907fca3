(** Invariants of the packer. *)
From Coq Require Import Ascii ZArith NArith List Bool Lia Permutation Sorted.
From Verif Require Import Base ModelTypes ModelRegistry ModelJson ModelPacker SpecPacker PackName.
Import ListNotations.
Local Open Scope Z_scope.
Local Open Scope list_scope.

(** lower_bound *)
Lemma lower_bound_le : forall z l, (lower_bound z l <= length l)%nat.
Proof. induction l as [|t l IH]; simpl; [lia|]. destruct (t_size t <? z); simpl; lia. Qed.
Lemma lower_bound_before : forall z l, Forall (fun t => t_size t < z) (firstn (lower_bound z l) l).
Proof.
  induction l as [|t l IH]; simpl; [constructor|]. destruct (t_size t <? z) eqn:E; simpl; [|constructor].
  constructor; [apply Z.ltb_lt; exact E|exact IH].
Qed.
Definition le_size (a b : top) : Prop := t_size a <= t_size b.
Lemma lower_bound_after : forall z l, StronglySorted le_size l -> Forall (fun t => z <= t_size t) (skipn (lower_bound z l) l).
Proof.
  induction l as [|t l IH]; intros H; simpl; [constructor|]. inversion H; subst.
  destruct (t_size t <? z) eqn:E; simpl; [apply IH; auto|]. apply Z.ltb_ge in E.
  constructor; [exact E|]. eapply Forall_impl; [|eassumption]. unfold le_size. intros; lia.
Qed.
Lemma sorted_app : forall l1 l2, StronglySorted le_size l1 -> StronglySorted le_size l2 ->
  (forall a b, In a l1 -> In b l2 -> le_size a b) -> StronglySorted le_size (l1 ++ l2).
Proof.
  induction l1 as [|x l1 IH]; intros l2 H1 H2 H; simpl; auto. inversion H1; subst. constructor.
  - apply IH; auto. intros; apply H; simpl; auto.
  - apply Forall_app. split; auto. apply Forall_forall. intros b Hb. apply H; simpl; auto.
Qed.
Lemma sorted_firstn : forall k l, StronglySorted le_size l -> StronglySorted le_size (firstn k l).
Proof.
  induction k as [|k IH]; intros [|x l] H; simpl; try constructor; inversion H; subst.
  - now apply IH.
  - rewrite Forall_forall in *. intros y Hy. apply H3. rewrite <- (firstn_skipn k l). apply in_or_app. auto.
Qed.
Lemma sorted_skipn : forall k l, StronglySorted le_size l -> StronglySorted le_size (skipn k l).
Proof. induction k as [|k IH]; intros [|x l] H; simpl; auto. inversion H; subst. now apply IH. Qed.
Lemma sorted_split : forall k l, StronglySorted le_size l -> forall a b, In a (firstn k l) -> In b (skipn k l) -> le_size a b.
Proof.
  induction k as [|k IH]; intros [|x l] H a b Ha Hb; simpl in *; try tauto. inversion H; subst.
  destruct Ha as [<-|Ha]; [|eauto]. rewrite Forall_forall in H3. apply H3.
  rewrite <- (firstn_skipn k l). apply in_or_app. auto.
Qed.
Lemma sorted_insert : forall t l, StronglySorted le_size l ->
  StronglySorted le_size (firstn (lower_bound (t_size t) l) l ++ t :: skipn (lower_bound (t_size t) l) l).
Proof.
  intros t l H. pose proof (lower_bound_before (t_size t) l) as B. pose proof (lower_bound_after (t_size t) l H) as A.
  rewrite Forall_forall in A, B. apply sorted_app.
  - now apply sorted_firstn.
  - constructor; [now apply sorted_skipn|]. apply Forall_forall. exact A.
  - intros a b Ha [<-|Hb]; unfold le_size; [specialize (B a Ha); lia|]. specialize (B a Ha). specialize (A b Hb). lia.
Qed.
Lemma nth_split3 : forall (A : Type) (l : list A) k x, nth_error l k = Some x -> l = firstn k l ++ x :: skipn (S k) l.
Proof. induction l as [|y l IH]; intros [|k] x H; simpl in *; try discriminate; [congruence|]. f_equal. now apply IH. Qed.
Lemma sorted_remove : forall k l, StronglySorted le_size l -> StronglySorted le_size (remove_nth k l).
Proof.
  intros k l H. unfold remove_nth. apply sorted_app; [now apply sorted_firstn|now apply sorted_skipn|].
  intros a b Ha Hb. apply (sorted_split k l H a b Ha). clear -Hb. revert l Hb.
  induction k as [|k IH]; intros [|x l] Hb; simpl in *; auto.
Qed.
Lemma remove_nth_perm : forall (A : Type) (l : list A) k x, nth_error l k = Some x -> Permutation l (x :: remove_nth k l).
Proof. intros A l k x H. rewrite (nth_split3 A l k x H) at 1. unfold remove_nth. symmetry. apply Permutation_middle. Qed.

(** pk_pop *)
Lemma pk_pop_spec : forall m p, StronglySorted le_size (pk_top p) ->
  match pk_pop m p with
  | None => Forall (fun t => m < t_size t) (pk_top p)
  | Some (t, p') =>
      exists k, nth_error (pk_top p) k = Some t /\ p' = pk_set (remove_nth k (pk_top p)) p /\ t_size t <= m /\
                Forall (fun u => t_size u <= m -> t_size u <= t_size t) (pk_top p)
  end.
Proof.
  intros m p H. unfold pk_pop. destruct (pk_top p) as [|t0 l0] eqn:E; [constructor|]. rewrite <- E in *. clear E t0 l0.
  pose proof (lower_bound_before m (pk_top p)) as B. pose proof (lower_bound_after m (pk_top p) H) as A.
  pose proof (lower_bound_le m (pk_top p)) as L. set (k := lower_bound m (pk_top p)) in *. clearbody k.
  set (l := pk_top p) in *. clearbody l.
  destruct (nth_error l k) as [t|] eqn:N.
  - destruct (t_size t =? m) eqn:Q.
    + rewrite N. apply Z.eqb_eq in Q. exists k. split; [exact N|]. split; [reflexivity|]. split; [lia|].
      apply Forall_forall. intros u _ Hu. lia.
    + apply Z.eqb_neq in Q. pose proof (nth_split3 _ _ _ _ N) as S3.
      assert (Gt : Forall (fun t => m < t_size t) (skipn k l)).
      { assert (Ht : m < t_size t).
        { rewrite Forall_forall in A. assert (In t (skipn k l)).
          { rewrite S3 at 1. rewrite skipn_app, skipn_firstn_comm.
            assert (length (firstn k l) = k) by (apply firstn_length_le; exact L). rewrite H0, !Nat.sub_diag. simpl. auto. }
          specialize (A _ H0). simpl in A. lia. }
        assert (Hs : StronglySorted le_size (skipn k l)) by now apply sorted_skipn.
        assert (E : skipn k l = t :: skipn (S k) l).
        { clear -N. revert k N. induction l as [|y l IH]; intros [|k] N; simpl in *; try discriminate; [congruence|]. now rewrite (IH k N). }
        rewrite E in *. inversion Hs; subst. constructor; [exact Ht|]. eapply Forall_impl; [|eassumption]. unfold le_size. intros; lia. }
      destruct k as [|k].
      * exact Gt.
      * destruct (nth_error l k) as [u|] eqn:U.
        -- exists k. split; [exact U|]. split; [reflexivity|].
           assert (E : firstn (S k) l = firstn k l ++ [u]).
           { clear -U. revert k U. induction l as [|y l IH]; intros [|k] U; simpl in *; try discriminate; [congruence|]. now rewrite <- (IH k U). }
           assert (Hu : t_size u < m). { rewrite Forall_forall in B. apply B. rewrite E. apply in_or_app. simpl; auto. }
           split; [lia|]. apply Forall_forall. intros v Hv Hm.
           rewrite <- (firstn_skipn (S k) l) in Hv. apply in_app_or in Hv. destruct Hv as [Hv|Hv].
           ++ rewrite E in Hv. apply in_app_or in Hv. destruct Hv as [Hv|[<-|[]]]; [|lia].
              apply (sorted_split k l H v u Hv). clear -U. revert k U. induction l as [|y l IH]; intros [|k] U; simpl in *; try discriminate; [left; congruence|]. now apply IH.
           ++ rewrite Forall_forall in Gt. specialize (Gt v Hv). simpl in Gt. lia.
        -- exfalso. apply nth_error_None in U. assert (S k < length l)%nat by (apply nth_error_Some; congruence). lia.
  - apply nth_error_None in N. assert (k = length l) by lia. subst k. rewrite firstn_all in B.
    destruct (nth_error l (length l - 1)) as [u|] eqn:U.
    + exists (length l - 1)%nat. split; [exact U|]. split; [reflexivity|].
      assert (Iu : In u l) by (eapply nth_error_In; eauto). rewrite Forall_forall in B. split; [specialize (B u Iu); simpl in B; lia|].
      apply Forall_forall. intros v Hv _.
      assert (l <> []) by (destruct l; [destruct Hv|discriminate]).
      rewrite (nth_split3 _ _ _ _ U) in Hv. apply in_app_or in Hv. destruct Hv as [Hv|[<-|Hv]]; [|lia|].
      * apply (sorted_split (length l - 1) l H v u Hv). rewrite (nth_split3 _ _ _ _ U) at 2.
        rewrite skipn_app. apply in_or_app. right. rewrite firstn_length_le by lia. rewrite Nat.sub_diag. simpl; auto.
      * exfalso. replace (S (length l - 1)) with (length l) in Hv by (destruct l; [congruence|simpl; lia]).
        rewrite skipn_all in Hv. destruct Hv.
    + apply nth_error_None in U. assert (l = []) by (destruct l; [auto|simpl in U; lia]). subst. constructor.
Qed.

Section Esc.
  Variable esc : name -> name.

  (** the name compacted alone *)
  Lemma compact_alone : forall sep r, sep <> [] -> exists n lg, compact_name (pu_name r) [] sep = Some (n, lg) /\
    compact (mk_mpush sep [] [r]) = Some (true, mk_mpush sep lg [mk_push n (pu_data r)]).
  Proof.
    intros sep r H. destruct (compact_name_inverse jp_std jp_std_ok sep (pu_name r) [] H) as (n & lg & E & _).
    exists n, ([] ++ lg). split; [exact E|]. unfold compact. cbn [mp_sep mp_legend mp_data]. destruct sep as [|c s]; [congruence|].
    cbn [compact_data]. rewrite E. reflexivity.
  Qed.
  Lemma compact_alone_diff : forall o r n lg, po_ncompact o = true -> compact_name (pu_name r) [] (po_sep o) = Some (n, lg) ->
    po_sep o <> [] -> accounted esc o r = push_size esc (po_jcompact o) r - zlen (pu_name r) + zlen n.
  Proof.
    intros o r n lg Hc E Hs. unfold accounted, push_size. rewrite Hc.
    destruct (compact_alone (po_sep o) r Hs) as (n2 & lg2 & E2 & ->). rewrite E2 in E. injection E as -> ->. simpl. lia.
  Qed.

  (** Invariant: sorted, sizes and legends as accounted. *)
  Definition top_ok (o : popts) (t : top) : Prop :=
    t_size t = accounted esc o (t_rec t) /\
    (if po_ncompact o then exists n, compact_name (pu_name (t_rec t)) [] (po_sep o) = Some (n, t_legend t) else t_legend t = []).
  Definition PInv (o : popts) (h : bool) (p : packer) : Prop :=
    pk_opt p = o /\ pk_handler p = h /\ StronglySorted le_size (pk_top p) /\ Forall (top_ok o) (pk_top p).

  Definition opts_ok (o : popts) : Prop := po_ncompact o = true -> po_sep o <> [].

  Lemma PInv_new : forall o h, PInv o h (pk_new o h).
  Proof. intros. repeat split; constructor. Qed.

  Lemma insert_perm : forall (A : Type) k (x : A) l, Permutation (firstn k l ++ x :: skipn k l) (x :: l).
  Proof. intros. rewrite <- Permutation_middle. now rewrite firstn_skipn. Qed.

  Lemma push_ok : forall o h p r, opts_ok o -> PInv o h p -> exists p' t, pk_push esc r p = Some p' /\ PInv o h p' /\
    t_rec t = r /\ top_ok o t /\ Permutation (pk_top p') (t :: pk_top p).
  Proof.
    intros o h p r Ho (E1 & E2 & S & F). unfold pk_push. rewrite E1.
    assert (K : forall t, top_ok o t -> t_rec t = r -> 
      PInv o h (pk_set (firstn (lower_bound (t_size t) (pk_top p)) (pk_top p) ++ t :: skipn (lower_bound (t_size t) (pk_top p)) (pk_top p)) p)).
    { intros t Ht Hr. split; [exact E1|]. split; [exact E2|]. split; [now apply sorted_insert|]. simpl.
      eapply Permutation_Forall; [symmetry; apply insert_perm|]. constructor; auto. }
    destruct (po_ncompact o) eqn:N.
    - destruct (compact_alone (po_sep o) r (Ho N)) as (n & lg & E & _). rewrite E.
      set (t := mk_top (push_size esc (po_jcompact o) r - zlen (pu_name r) + zlen n) r lg).
      assert (T : top_ok o t). { split; [simpl; symmetry; eapply compact_alone_diff; eauto|]. rewrite N. simpl. eauto. }
      eexists _, t. split; [reflexivity|]. split; [exact (K t T eq_refl)|]. split; [reflexivity|]. split; [exact T|].
      apply (insert_perm _ _ t).
    - set (t := mk_top (push_size esc (po_jcompact o) r) r []).
      assert (T : top_ok o t). { split; [simpl; unfold accounted; rewrite N; unfold push_size; lia|]. rewrite N. reflexivity. }
      eexists _, t. split; [reflexivity|]. split; [exact (K t T eq_refl)|]. split; [reflexivity|]. split; [exact T|].
      apply (insert_perm _ _ t).
  Qed.

  Lemma pushes_ok : forall o h l p, opts_ok o -> PInv o h p -> exists p', pk_pushes esc l p = Some p' /\ PInv o h p' /\
    Permutation (stored p') (l ++ stored p).
  Proof.
    intros o h. induction l as [|r l IH]; intros p Ho I; simpl; [eauto|].
    destruct (push_ok o h p r Ho I) as (p1 & t & -> & I1 & R & _ & P).
    destruct (IH p1 Ho I1) as (p2 & -> & I2 & P2). exists p2. split; [reflexivity|]. split; [exact I2|].
    rewrite P2. unfold stored at 1. rewrite (Permutation_map t_rec P). simpl. rewrite R. symmetry. apply Permutation_middle.
  Qed.

  Lemma pop_ok : forall o h p m, PInv o h p ->
    match pk_pop m p with
    | None => Forall (fun t => m < t_size t) (pk_top p)
    | Some (t, p') => PInv o h p' /\ top_ok o t /\ Permutation (pk_top p) (t :: pk_top p') /\ t_size t <= m /\
        Forall (fun u => t_size u <= m -> t_size u <= t_size t) (pk_top p) /\ length (pk_top p) = S (length (pk_top p'))
    end.
  Proof.
    intros o h p m (E1 & E2 & S & F). pose proof (pk_pop_spec m p S) as H. destruct (pk_pop m p) as [[t p']|]; [|exact H].
    destruct H as (k & N & -> & Hm & B). pose proof (remove_nth_perm _ _ _ _ N) as P.
    pose proof (Permutation_Forall P F) as F'. inversion F'; subst.
    split. { split; [auto|]. split; [auto|]. split; [now apply sorted_remove|assumption]. }
    split; [assumption|]. split; [exact P|]. split; [exact Hm|]. split; [exact B|].
    rewrite (Permutation_length P). reflexivity.
  Qed.

  Lemma pop_loop_ok : forall o h, opts_ok o -> forall fuel jl pl dl seen res p, PInv o h p -> (length (pk_top p) < fuel)%nat ->
    exists res' p', pop_loop esc fuel jl pl dl seen res p = Some (res', p') /\ PInv o h p' /\
      (exists e, res' = res ++ e /\ Permutation (stored p) (e ++ stored p')).
  Proof.
    intros o h Ho. induction fuel as [|fuel IH]; intros jl pl dl seen res p I Hf; [lia|]. cbn [pop_loop].
    assert (Stop : exists res' p', Some (res, p) = Some (res', p') /\ PInv o h p' /\
      (exists e, res' = res ++ e /\ Permutation (stored p) (e ++ stored p'))).
    { exists res, p. split; [reflexivity|]. split; [exact I|]. exists []. rewrite app_nil_r. auto. }
    destruct (jl <=? 0); [exact Stop|]. pose proof (pop_ok o h p jl I) as Q.
    destruct (pk_pop jl p) as [[t p1]|]; [|exact Stop]. destruct Q as (I1 & T & P & _ & _ & L).
    assert (PS : Permutation (stored p) (t_rec t :: stored p1)) by (unfold stored; rewrite (Permutation_map t_rec P); reflexivity).
    destruct (charge (t_legend t) seen (t_size t)) as [cur seen'].
    assert (One : exists res' p', Some (res ++ [t_rec t], p1) = Some (res', p') /\ PInv o h p' /\
      (exists e, res' = res ++ e /\ Permutation (stored p) (e ++ stored p'))).
    { eexists _, _. split; [reflexivity|]. split; [exact I1|]. exists [t_rec t]. split; [reflexivity|exact PS]. }
    destruct (cur <=? jl).
    - cbv zeta. match goal with |- context [if ?b then Some (res ++ _, p1) else _] => destruct b end; [exact One|].
      match goal with |- context [if ?b then Some (res ++ _, p1) else _] => destruct b end; [exact One|].
      match goal with |- context [pop_loop esc fuel ?a ?b ?c ?d ?e p1] => destruct (IH a b c d e p1 I1) as (res' & p' & E & I' & (e' & -> & P')) end; [lia|].
      rewrite E. eexists _, _. split; [reflexivity|]. split; [exact I'|]. exists (t_rec t :: e').
      split; [rewrite <- app_assoc; reflexivity|]. rewrite PS. simpl. now constructor.
    - destruct (push_ok o h p1 (t_rec t) Ho I1) as (p2 & t2 & -> & I2 & R & _ & P2).
      eexists _, _. split; [reflexivity|]. split; [exact I2|]. exists []. rewrite app_nil_r. split; [reflexivity|].
      rewrite PS. unfold stored. rewrite (Permutation_map t_rec P2). simpl. now rewrite R.
  Qed.

  Section Parser.
    Variable jp : jparser.
    Hypothesis OK : jparser_ok jp.

    (** A batch the receiver can read: recompact succeeds and gives [l]. *)
    Definition readable (b : mpush) (l : list push) : Prop :=
      fst (recompact jp b) = true /\ received jp b = l /\ map pu_data (mp_data b) = map pu_data l.

    Lemma compact_readable : forall sep l, sep <> [] -> names_weight l <= two64 ->
      exists b, compact (mk_mpush sep [] l) = Some (true, b) /\ mp_sep b = sep /\ readable b l.
    Proof.
      intros sep l Hs Hw. destruct (round_trip jp OK (mk_mpush sep [] l)) as (b & E & S & D & R); [exact Hs|simpl; unfold zlen; simpl; lia|].
      exists b. split; [exact E|]. split; [exact S|]. unfold readable, received. rewrite R. simpl in *. auto.
    Qed.

    Lemma names_weight_app : forall a b, names_weight (a ++ b) = names_weight a + names_weight b.
    Proof. induction a as [|x a IH]; intros b; simpl; [lia|]. rewrite IH. lia. Qed.
    Lemma names_weight_nonneg : forall a, 0 <= names_weight a.
    Proof. induction a as [|x a IH]; simpl; unfold zlen in *; lia. Qed.
    Lemma names_weight_perm : forall a b, Permutation a b -> names_weight a = names_weight b.
    Proof. intros a b H. induction H; simpl; lia. Qed.

    Lemma multi_pop_ok : forall o h p, opts_ok o -> PInv o h p -> names_weight (stored p) <= two64 ->
      exists b p', pk_multi_pop esc p = Some (b, p') /\ PInv o h p' /\
        match b with
        | None => Permutation (stored p) (stored p')
        | Some m => exists l, l <> [] /\ readable m l /\ Permutation (stored p) (l ++ stored p') /\ mp_sep m = po_sep o
        end.
    Proof.
      intros o h p Ho I Hw. unfold pk_multi_pop. destruct (pk_top p) as [|t0 l0] eqn:E; [eexists _, _; split; [reflexivity|]; auto|].
      rewrite <- E. assert (EO : pk_opt p = o) by apply I. rewrite EO.
      destruct (po_json o <? mpush_size esc (po_jcompact o) mpush0); [eexists _, _; split; [reflexivity|]; auto|].
      match goal with |- context [pop_loop esc ?f ?a ?b ?c ?d ?e p] =>
        destruct (pop_loop_ok o h Ho f a b c d e p I) as (res & p1 & -> & I1 & (e' & -> & P)) end; [lia|].
      simpl app. destruct e' as [|x e']; [eexists _, _; split; [reflexivity|]; auto|].
      set (l := x :: e') in *.
      destruct (po_ncompact o) eqn:N.
      - destruct (compact_readable (po_sep o) l (Ho N)) as (b & -> & S & R).
        { rewrite (names_weight_perm _ _ P), names_weight_app in Hw. pose proof (names_weight_nonneg (stored p1)). lia. }
        eexists _, _. split; [reflexivity|]. split; [exact I1|]. exists l. split; [discriminate|]. auto.
      - eexists _, _. split; [reflexivity|]. split; [exact I1|]. exists l. split; [discriminate|].
        split; [unfold readable, received; simpl; auto|]. auto.
    Qed.

    Lemma pushout_loop_ok : forall o h, opts_ok o -> forall fuel p, PInv o h p -> names_weight (stored p) <= two64 ->
      (length (pk_top p) < fuel)%nat ->
      exists ms p', pushout_loop esc fuel p = Some (ms, p') /\ PInv o h p' /\
        exists ls, Forall2 readable ms ls /\ Forall (fun l => l <> []) ls /\ Permutation (stored p) (concat ls ++ stored p') /\
          Forall (fun m => mp_sep m = po_sep o) ms.
    Proof.
      intros o h Ho. induction fuel as [|fuel IH]; intros p I Hw Hf; [lia|]. cbn [pushout_loop].
      destruct (multi_pop_ok o h p Ho I Hw) as (b & p1 & -> & I1 & H). destruct b as [m|].
      - destruct H as (l & Nl & R & P & Sp).
        assert (W : names_weight (stored p1) <= two64).
        { rewrite (names_weight_perm _ _ P), names_weight_app in Hw. pose proof (names_weight_nonneg l). lia. }
        assert (L : (length (pk_top p1) < fuel)%nat).
        { apply Permutation_length in P. unfold stored in P. rewrite app_length, !map_length in P. destruct l; [congruence|]. simpl in P. lia. }
        destruct (IH p1 I1 W L) as (ms & p2 & -> & I2 & ls & A & B & C & D).
        eexists _, _. split; [reflexivity|]. split; [exact I2|]. exists (l :: ls).
        split; [constructor; auto|]. split; [constructor; auto|]. split; [|constructor; auto].
        simpl. rewrite P, C, app_assoc. reflexivity.
      - eexists _, _. split; [reflexivity|]. split; [exact I1|]. exists []. repeat split; auto.
    Qed.

    Lemma pushout_ok : forall o h p, opts_ok o -> PInv o h p -> names_weight (stored p) <= two64 ->
      exists n ms p', pk_pushout esc p = Some (n, ms, p') /\ PInv o h p' /\
        (if h then stored p' = [] /\ exists ls, Forall2 readable ms ls /\ Permutation (stored p) (concat ls) /\ Forall (fun l => l <> []) ls
         else n = 0%nat /\ ms = [] /\ p' = p).
    Proof.
      intros o h p Ho I Hw. unfold pk_pushout. assert (EH : pk_handler p = h) by apply I. rewrite EH. destruct h.
      - destruct (pushout_loop_ok o true Ho (S (length (pk_top p))) p I Hw) as (ms & p1 & -> & I1 & ls & A & B & C & D); [lia|].
        destruct (pk_top p1) as [|t l] eqn:E.
        + eexists _, _, _. split; [reflexivity|]. split; [exact I1|]. unfold stored in *. rewrite E in *. split; [reflexivity|].
          exists ls. rewrite app_nil_r in C. auto.
        + rewrite <- E. destruct (compact_readable sep0 (map t_rec (pk_top p1))) as (b & -> & S & R); [discriminate| |].
          { rewrite (names_weight_perm _ _ C), names_weight_app in Hw. fold (stored p1).
            pose proof (names_weight_nonneg (concat ls)). lia. }
          eexists _, _, _. split; [reflexivity|]. split.
          { destruct I1 as (X1 & X2 & X3 & X4). split; [exact X1|]. split; [exact X2|]. split; constructor. }
          split; [reflexivity|]. exists (ls ++ [map t_rec (pk_top p1)]).
          split; [apply Forall2_app; [exact A|constructor; [exact R|constructor]]|].
          split; [rewrite concat_app; simpl; rewrite app_nil_r; exact C|].
          apply Forall_app. split; [exact B|]. constructor; [rewrite E; discriminate|constructor].
      - eexists _, _, _. split; [reflexivity|]. auto.
    Qed.

    (** Histories *)
    Definition gives (r : pres) (ls : list (list push)) : Prop := Forall2 readable (batches r) ls.

    Lemma do_ok : forall o h c p, opts_ok o -> PInv o h p -> names_weight (pushed c ++ stored p) <= two64 ->
      exists r p' ls, pk_do esc c p = Some (r, p') /\ PInv o h p' /\ gives r ls /\
        Permutation (pushed c ++ stored p) (concat ls ++ singles r ++ stored p').
    Proof.
      intros o h c p Ho I Hw. unfold gives.
      assert (W2 : names_weight (stored p) <= two64).
      { rewrite names_weight_app in Hw. pose proof (names_weight_nonneg (pushed c)). lia. }
      destruct c as [r|l|m| |]; simpl pk_do.
      - destruct (push_ok o h p r Ho I) as (p1 & t & -> & I1 & R & _ & P). eexists _, _, []. split; [reflexivity|]. split; [exact I1|].
        split; [constructor|]. simpl. unfold stored. rewrite (Permutation_map t_rec P). simpl. now rewrite R.
      - destruct (pushes_ok o h l p Ho I) as (p1 & -> & I1 & P). eexists _, _, []. split; [reflexivity|]. split; [exact I1|].
        split; [constructor|]. simpl. now rewrite P.
      - pose proof (pop_ok o h p m I) as Q. destruct (pk_pop m p) as [[t p1]|].
        + destruct Q as (I1 & _ & P & _). eexists _, _, []. split; [reflexivity|]. split; [exact I1|]. split; [constructor|].
          simpl. unfold stored. rewrite (Permutation_map t_rec P). reflexivity.
        + eexists _, _, []. split; [reflexivity|]. split; [exact I|]. split; [constructor|]. reflexivity.
      - destruct (multi_pop_ok o h p Ho I W2) as ([m|] & p1 & -> & I1 & H).
        + destruct H as (l & _ & R & P & _). eexists _, _, [l]. split; [reflexivity|]. split; [exact I1|].
          split; [constructor; [exact R|constructor]|]. simpl. now rewrite app_nil_r.
        + eexists _, _, []. split; [reflexivity|]. split; [exact I1|]. split; [constructor|]. exact H.
      - destruct (pushout_ok o h p Ho I W2) as (n & ms & p1 & -> & I1 & H). destruct h.
        + destruct H as (S & ls & R & P & _). eexists _, _, ls. split; [reflexivity|]. split; [exact I1|]. split; [exact R|].
          simpl. rewrite S. simpl. now rewrite app_nil_r.
        + destruct H as (-> & -> & ->). eexists _, _, []. split; [reflexivity|]. split; [exact I1|]. split; [constructor|]. reflexivity.
    Qed.

    Lemma run_ok : forall o h cs p, opts_ok o -> PInv o h p -> names_weight (flat_map pushed cs ++ stored p) <= two64 ->
      exists rs p' ls, pk_run esc p cs = Some (rs, p') /\ PInv o h p' /\
        Forall2 readable (flat_map batches rs) ls /\
        Permutation (flat_map pushed cs ++ stored p) (concat ls ++ flat_map singles rs ++ stored p').
    Proof.
      intros o h. induction cs as [|c cs IH]; intros p Ho I Hw.
      - exists [], p, []. split; [reflexivity|]. split; [exact I|]. split; [constructor|reflexivity].
      - cbn [pk_run flat_map]. cbn [flat_map] in Hw. rewrite !names_weight_app in Hw.
        pose proof (names_weight_nonneg (flat_map pushed cs)) as NN.
        destruct (do_ok o h c p Ho I) as (r & p1 & ls1 & -> & I1 & G1 & P1); [rewrite names_weight_app; lia|].
        destruct (IH p1 Ho I1) as (rs & p2 & ls2 & -> & I2 & G2 & P2).
        { rewrite names_weight_app. apply names_weight_perm in P1. rewrite !names_weight_app in P1.
          pose proof (names_weight_nonneg (concat ls1)). pose proof (names_weight_nonneg (singles r)). lia. }
        eexists _, _, (ls1 ++ ls2). split; [reflexivity|]. split; [exact I2|]. cbn [flat_map].
        split; [apply Forall2_app; assumption|]. rewrite concat_app.
        rewrite <- app_assoc.
        transitivity (flat_map pushed cs ++ pushed c ++ stored p).
        { rewrite !app_assoc. apply Permutation_app_tail, Permutation_app_comm. }
        rewrite P1.
        transitivity (concat ls1 ++ singles r ++ flat_map pushed cs ++ stored p1).
        { rewrite !app_assoc. apply Permutation_app_tail. rewrite <- app_assoc. apply Permutation_app_comm. }
        rewrite P2. rewrite <- !app_assoc. apply Permutation_app_head.
        rewrite !app_assoc. do 2 apply Permutation_app_tail. apply Permutation_app_comm.
    Qed.
  End Parser.

  (** The same without the memory bound: every call returns and keeps the invariant. *)
  Lemma compact_total : forall sep lg l, exists b m, compact (mk_mpush sep lg l) = Some (b, m) /\ mp_sep m = sep /\ length (mp_data m) = length l.
  Proof.
    intros sep lg l. unfold compact. cbn [mp_sep mp_data mp_legend]. destruct sep as [|c s]; [eexists _, _; eauto|].
    destruct (compact_data_inverse jp_std jp_std_ok (c :: s) ltac:(discriminate) l lg) as (l' & e & -> & _ & E & _).
    eexists _, _. split; [reflexivity|]. split; [reflexivity|]. simpl.
    rewrite <- (map_length pu_data l'), E, map_length. reflexivity.
  Qed.

  Lemma multi_pop_inv : forall o h p, opts_ok o -> PInv o h p ->
    exists b p', pk_multi_pop esc p = Some (b, p') /\ PInv o h p' /\
      match b with None => Permutation (stored p) (stored p')
                 | Some m => (0 < length (mp_data m))%nat /\ length (stored p) = (length (mp_data m) + length (stored p'))%nat end.
  Proof.
    intros o h p Ho I. unfold pk_multi_pop. destruct (pk_top p) as [|t0 l0] eqn:E; [eexists _, _; split; [reflexivity|]; auto|].
    rewrite <- E. assert (EO : pk_opt p = o) by apply I. rewrite EO.
    destruct (po_json o <? mpush_size esc (po_jcompact o) mpush0); [eexists _, _; split; [reflexivity|]; auto|].
    match goal with |- context [pop_loop esc ?f ?a ?b ?c ?d ?e p] =>
      destruct (pop_loop_ok o h Ho f a b c d e p I) as (res & p1 & -> & I1 & (e' & -> & P)) end; [lia|].
    simpl app. destruct e' as [|x e']; [eexists _, _; split; [reflexivity|]; auto|].
    pose proof (Permutation_length P) as PL. rewrite app_length in PL.
    destruct (po_ncompact o) eqn:N.
    - destruct (compact_total (po_sep o) [] (x :: e')) as (b & m & -> & _ & L).
      eexists _, _. split; [reflexivity|]. split; [exact I1|]. rewrite L. simpl in *. lia.
    - eexists _, _. split; [reflexivity|]. split; [exact I1|]. simpl in *. lia.
  Qed.

  Lemma pushout_loop_inv : forall o h, opts_ok o -> forall fuel p, PInv o h p -> (length (pk_top p) < fuel)%nat ->
    exists ms p', pushout_loop esc fuel p = Some (ms, p') /\ PInv o h p'.
  Proof.
    intros o h Ho. induction fuel as [|fuel IH]; intros p I Hf; [lia|]. cbn [pushout_loop].
    destruct (multi_pop_inv o h p Ho I) as (b & p1 & -> & I1 & H). destruct b as [m|]; [|eauto].
    unfold stored in H. rewrite !map_length in H.
    destruct (IH p1 I1) as (ms & p2 & -> & I2); [lia|]. eauto.
  Qed.

  Lemma do_inv : forall o h c p, opts_ok o -> PInv o h p -> exists r p', pk_do esc c p = Some (r, p') /\ PInv o h p'.
  Proof.
    intros o h c p Ho I. destruct c as [r|l|m| |]; simpl.
    - destruct (push_ok o h p r Ho I) as (p1 & t & -> & I1 & _). eauto.
    - destruct (pushes_ok o h l p Ho I) as (p1 & -> & I1 & _). eauto.
    - pose proof (pop_ok o h p m I) as Q. destruct (pk_pop m p) as [[t p1]|]; [destruct Q as (I1 & _)|]; eauto.
    - destruct (multi_pop_inv o h p Ho I) as (b & p1 & -> & I1 & _). eauto.
    - unfold pk_pushout. destruct (pk_handler p); [|eauto].
      destruct (pushout_loop_inv o h Ho (S (length (pk_top p))) p I) as (ms & p1 & -> & I1); [lia|].
      destruct (pk_top p1) as [|t l] eqn:E; [eauto|].
      destruct (compact_total sep0 [] (map t_rec (t :: l))) as (b & m & -> & _).
      eexists _, _. split; [reflexivity|]. destruct I1 as (X1 & X2 & X3 & X4). repeat split; auto; constructor.
  Qed.

  Lemma run_inv : forall o h cs p, opts_ok o -> PInv o h p -> exists rs p', pk_run esc p cs = Some (rs, p') /\ PInv o h p'.
  Proof.
    intros o h. induction cs as [|c cs IH]; intros p Ho I; simpl; [eauto|].
    destruct (do_inv o h c p Ho I) as (r & p1 & -> & I1). destruct (IH p1 Ho I1) as (rs & p2 & -> & I2). eauto.
  Qed.

  Lemma reach_inv : forall o h cs rs p, opts_ok o -> pk_run esc (pk_new o h) cs = Some (rs, p) -> PInv o h p.
  Proof.
    intros o h cs rs p Ho H. destruct (run_inv o h cs (pk_new o h) Ho (PInv_new o h)) as (rs' & p' & E & I).
    rewrite E in H. injection H as <- <-. exact I.
  Qed.

  (** C40 *)
  Lemma pop_loop_push : forall fuel jl pl dl seen res p res' p', po_push (pk_opt p) <> 0 -> 0 < pl ->
    pop_loop esc fuel jl pl dl seen res p = Some (res', p') -> zlen res' <= zlen res + pl.
  Proof.
    induction fuel as [|fuel IH]; intros jl pl dl seen res p res' p' Hp Hpl H; [discriminate|]. cbn [pop_loop] in H.
    assert (S0 : Some (res, p) = Some (res', p') -> zlen res' <= zlen res + pl) by (intros E; injection E as <- <-; lia).
    destruct (jl <=? 0); [auto|]. destruct (pk_pop jl p) as [[t p1]|] eqn:P; [|auto].
    assert (EO : pk_opt p1 = pk_opt p).
    { unfold pk_pop in P. destruct (pk_top p); [discriminate|].
      match goal with H : match ?x with _ => _ end = _ |- _ => destruct x; [|discriminate] end.
      match goal with H : match ?x with _ => _ end = _ |- _ => destruct x; [|discriminate] end. injection P as _ <-. reflexivity. }
    destruct (charge (t_legend t) seen (t_size t)) as [cur seen'].
    assert (S1 : Some (res ++ [t_rec t], p1) = Some (res', p') -> zlen res' <= zlen res + pl).
    { intros E; injection E as <- <-. unfold zlen in *. rewrite app_length. simpl. lia. }
    destruct (cur <=? jl).
    - cbv zeta in H. destruct (po_push (pk_opt p) =? 0) eqn:Z0; [apply Z.eqb_eq in Z0; congruence|]. simpl negb in H. simpl andb in H.
      destruct (pl - 1 =? 0) eqn:Z1; [auto|]. apply Z.eqb_neq in Z1.
      match goal with H : (if ?b then _ else _) = _ |- _ => destruct b end; [auto|].
      apply IH in H; [|rewrite EO; exact Hp|lia]. unfold zlen in *. rewrite app_length in H. simpl in H. lia.
    - destruct (pk_push esc (t_rec t) p1) as [p2|]; [|discriminate]. injection H as <- <-. lia.
  Qed.

  Lemma multi_pop_push_limit : forall p m p', 0 < po_push (pk_opt p) -> pk_multi_pop esc p = Some (Some m, p') ->
    1 <= zlen (mp_data m) <= po_push (pk_opt p).
  Proof.
    intros p m p' Hp H. unfold pk_multi_pop in H. destruct (pk_top p); [discriminate|].
    destruct (po_json (pk_opt p) <? _); [discriminate|].
    match goal with H : match ?x with _ => _ end = _ |- _ => destruct x as [[res p1]|] eqn:E; [|discriminate] end.
    apply pop_loop_push in E; [|lia|exact Hp]. destruct res as [|r res]; [discriminate|].
    assert (L : mp_data m = r :: res \/ length (mp_data m) = length (r :: res)).
    { destruct (po_ncompact (pk_opt p)).
      - destruct (compact_total (po_sep (pk_opt p)) [] (r :: res)) as (b & m' & Q & _ & L). rewrite Q in H. injection H as <- <-. auto.
      - injection H as <- <-. left. reflexivity. }
    assert (L2 : length (mp_data m) = length (r :: res)) by (destruct L as [->|L]; auto).
    unfold zlen in *. rewrite L2. simpl in *. lia.
  Qed.

  (** C41: the data limit has no influence *)
  Definition set_data (d : Z) (o : popts) : popts := mk_popts (po_push o) d (po_json o) (po_jcompact o) (po_sep o) (po_ncompact o).
  Definition with_data (d : Z) (p : packer) : packer := mk_packer (set_data d (pk_opt p)) (pk_handler p) (pk_top p).

  Lemma pop_with_data : forall d m p, pk_pop m (with_data d p) = option_map (fun q => (fst q, with_data d (snd q))) (pk_pop m p).
  Proof.
    intros d m p. unfold pk_pop. simpl. destruct (pk_top p); [reflexivity|]. 
    match goal with |- match ?x with _ => _ end = _ => destruct x; [|reflexivity] end.
    match goal with |- match ?x with _ => _ end = _ => destruct x; reflexivity end.
  Qed.
  Lemma push_with_data : forall d r p, pk_push esc r (with_data d p) = option_map (with_data d) (pk_push esc r p).
  Proof.
    intros d r p. unfold pk_push. simpl. destruct (po_ncompact (pk_opt p)); [|reflexivity].
    destruct (compact_name (pu_name r) [] (po_sep (pk_opt p))) as [[n lg]|]; reflexivity.
  Qed.
  Lemma pop_loop_with_data : forall d fuel jl pl dl1 dl2 seen res p, 0 <= po_data (pk_opt p) -> 0 <= d ->
    (po_data (pk_opt p) = 0 \/ 0 < dl1) -> (d = 0 \/ 0 < dl2) ->
    pop_loop esc fuel jl pl dl2 seen res (with_data d p) =
    option_map (fun q => (fst q, with_data d (snd q))) (pop_loop esc fuel jl pl dl1 seen res p).
  Proof.
    intros d. induction fuel as [|fuel IH]; intros jl pl dl1 dl2 seen res p P0 D0 H1 H2; [reflexivity|]. cbn [pop_loop].
    destruct (jl <=? 0); [reflexivity|]. rewrite pop_with_data. destruct (pk_pop jl p) as [[t p1]|] eqn:P; [|reflexivity].
    assert (EO : pk_opt p1 = pk_opt p).
    { unfold pk_pop in P. destruct (pk_top p); [discriminate|].
      match goal with H : match ?x with _ => _ end = _ |- _ => destruct x; [|discriminate] end.
      match goal with H : match ?x with _ => _ end = _ |- _ => destruct x; [|discriminate] end. injection P as _ <-. reflexivity. }
    cbn [option_map fst snd]. destruct (charge (t_legend t) seen (t_size t)) as [cur seen'].
    change (po_json (pk_opt (with_data d p))) with (po_json (pk_opt p)). change (po_push (pk_opt (with_data d p))) with (po_push (pk_opt p)).
    change (po_data (pk_opt (with_data d p))) with d.
    destruct (cur <=? jl).
    - cbv zeta. match goal with |- (if ?b then _ else _) = option_map _ (if ?b then _ else _) => destruct b end; [reflexivity|].
      assert (A1 : (negb (po_data (pk_opt p) =? 0) && ((dl1 <? 0) || ((if po_data (pk_opt p) =? 0 then dl1 else dl1 - 0) =? 0))) = false).
      { destruct (po_data (pk_opt p) =? 0) eqn:Q; simpl; [reflexivity|]. apply Z.eqb_neq in Q.
        apply orb_false_iff. split; [apply Z.ltb_ge|apply Z.eqb_neq]; lia. }
      assert (A2 : (negb (d =? 0) && ((dl2 <? 0) || ((if d =? 0 then dl2 else dl2 - 0) =? 0))) = false).
      { destruct (d =? 0) eqn:Q; simpl; [reflexivity|]. apply Z.eqb_neq in Q.
        apply orb_false_iff. split; [apply Z.ltb_ge|apply Z.eqb_neq]; lia. }
      rewrite A1, A2. apply IH; rewrite ?EO; auto.
      + destruct (po_data (pk_opt p) =? 0); lia.
      + destruct (d =? 0); lia.
    - rewrite push_with_data. destruct (pk_push esc (t_rec t) p1); reflexivity.
  Qed.
  Lemma multi_pop_with_data : forall d p, 0 <= po_data (pk_opt p) -> 0 <= d ->
    pk_multi_pop esc (with_data d p) = option_map (fun q => (fst q, with_data d (snd q))) (pk_multi_pop esc p).
  Proof.
    intros d p P0 D0. unfold pk_multi_pop. change (pk_top (with_data d p)) with (pk_top p).
    destruct (pk_top p) as [|t l] eqn:E; [reflexivity|]. simpl pk_opt. cbn [po_json po_jcompact po_push po_data po_sep po_ncompact set_data].
    destruct (po_json (pk_opt p) <? mpush_size esc (po_jcompact (pk_opt p)) mpush0); [reflexivity|].
    rewrite (pop_loop_with_data d _ _ _ (po_data (pk_opt p)) d); auto; [|lia|lia].
    destruct (pop_loop esc _ _ _ _ _ _ p) as [[res p1]|]; [|reflexivity]. simpl. destruct res as [|r res]; [reflexivity|].
    destruct (po_ncompact (pk_opt p)); [|reflexivity]. destruct (compact _) as [[b m]|]; reflexivity.
  Qed.
End Esc.
