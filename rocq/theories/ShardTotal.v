(** Sections with safe inputs are defined. *)
From Coq Require Import ZArith List Bool Arith Lia Ascii Permutation.
From Verif Require Import Base ModelTypes ModelReducer SpecReducer ModelSeparator SpecSeparator ModelAggregator SpecAggregator AggSafe
  ModelRegistry RegProofs ModelMt ModelMulti SpecMulti MultiProofs MultiRun ModelShards SpecShards ShardProofs ShardRun.
Import ListNotations.
Local Open Scope Z_scope.

Definition sec_safe (ao : aopts) (s : sec) : Prop := match s with SPush e _ d h => h = true /\ push_safe ao e d | SPop _ h _ _ => h = true | _ => True end.
Definition sec_values (s : sec) : list Z := match s with SPush _ _ d _ => rd_data d | _ => [] end.
Lemma secs_safe ao k op : mop_safe ao op -> Forall (sec_safe ao) (secs k op).
Proof.
  destruct op as [e n d h|ps h|n|f h ord|]; cbn [mop_safe secs]; intros H.
  - constructor; [exact H|constructor].
  - destruct H as [-> H]. apply Forall_map. eapply Forall_impl; [|exact H]. cbn. auto.
  - repeat constructor.
  - apply Forall_map, Forall_forall. cbn. auto.
  - apply Forall_map, Forall_forall. cbn. auto.
Qed.
Lemma secs_order k op : order_ok op -> Forall sec_order_ok (secs k op).
Proof.
  destruct op as [e n d h|ps h|n|f h ord|]; cbn [order_ok secs]; intros H; try (repeat constructor; fail); apply Forall_map, Forall_forall; cbn; auto.
Qed.
Lemma secs_values k op : length (flat_map sec_values (secs k op)) = length (mop_values op).
Proof.
  destruct op as [e n d h|ps h|n|f h ord|]; cbn [mop_values secs flat_map sec_values]; auto.
  - now rewrite app_nil_r.
  - induction ps as [|[e [n d]] ps IH]; cbn [map flat_map sec_values fst snd]; auto. now rewrite !app_length, IH.
  - induction (seq 0 k); simpl; auto.
  - induction (seq 0 k); simpl; auto.
Qed.
Lemma secs_at hash o op : (0 < ma_hash o)%nat -> Forall (fun c => (sec_at hash o c < ma_hash o)%nat) (secs (ma_hash o) op).
Proof.
  intros H. destruct op as [e n d h|ps h|n|f h ord|]; cbn [secs].
  - repeat constructor. cbn. now apply shard_lt.
  - apply Forall_map, Forall_forall. intros x _. cbn. now apply shard_lt.
  - repeat constructor. cbn. now apply shard_lt.
  - apply Forall_map, Forall_forall. intros i Hi. apply in_seq in Hi. cbn. lia.
  - apply Forall_map, Forall_forall. intros i Hi. apply in_seq in Hi. cbn. lia.
Qed.

(** A log is no longer than the programs. *)
Section Count.
  Context {C R : Type}.
  Variable w : C -> nat.
  Definition total (l : list (C * R)) : nat := list_sum (map (fun x => w (fst x)) l).
  Lemma total_threads N (log : list (nat * (C * R))) : (forall x, In x log -> (fst x < N)%nat) ->
    total (map snd log) = list_sum (map (fun i => total (by_thread i log)) (seq 0 N)).
  Proof.
    induction log as [|[i x] log IH]; intros H.
    - cbn [map]. unfold by_thread, total. cbn. induction (seq 0 N); simpl; auto.
    - unfold total at 1. cbn [map snd list_sum fold_right]. fold (list_sum (map (fun y => w (fst y)) (map snd log))). fold (total (map snd log)). rewrite IH by (intros; apply H; now right).
      assert (L : (i < N)%nat) by (apply (H (i, x)); now left). clear - L.
      assert (E : forall j, total (by_thread j ((i, x) :: log)) = ((if (j =? i)%nat then w (fst x) else 0) + total (by_thread j log))%nat).
      { intros j. unfold by_thread. cbn [filter fst]. rewrite Nat.eqb_sym. destruct (j =? i)%nat; reflexivity. }
      rewrite (map_ext _ _ E). clear E.
      assert (X : forall a n, list_sum (map (fun j => ((if (j =? i)%nat then w (fst x) else 0) + total (by_thread j log))%nat) (seq a n)) =
        ((if ((a <=? i) && (i <? a + n))%nat then w (fst x) else 0) + list_sum (map (fun j => total (by_thread j log)) (seq a n)))%nat).
      { intros a n. revert a. induction n as [|n IH]; intros a; cbn [seq map list_sum fold_right].
        - destruct (Nat.leb_spec a i), (Nat.ltb_spec i (a + 0)); simpl; lia.
        - unfold list_sum in IH. rewrite IH. destruct (Nat.eqb_spec a i), (Nat.leb_spec a i), (Nat.ltb_spec i (a + S n)), (Nat.leb_spec (S a) i), (Nat.ltb_spec i (S a + n)); simpl; lia. }
      rewrite X. destruct (Nat.leb_spec 0 i), (Nat.ltb_spec i (0 + N)); simpl; lia.
  Qed.
  Lemma list_sum_le {A} (f g : A -> nat) l : (forall x, In x l -> (f x <= g x)%nat) -> (list_sum (map f l) <= list_sum (map g l))%nat.
  Proof. induction l as [|x l IH]; simpl; intros H; auto. pose proof (H x (or_introl eq_refl)). specialize (IH (fun y Hy => H y (or_intror Hy))). lia. Qed.
  Lemma sum_nth {A} (f : list A -> nat) (ps : list (list A)) : list_sum (map (fun i => f (nth i ps [])) (seq 0 (length ps))) = list_sum (map f ps).
  Proof.
    assert (X : forall (qs ps : list (list A)), list_sum (map (fun i => f (nth i (qs ++ ps) [])) (seq (length qs) (length ps))) = list_sum (map f ps)).
    { intros qs ps'. revert qs. induction ps' as [|p ps' IH]; intros qs; cbn [length seq map list_sum fold_right]; auto. rewrite app_nth2, Nat.sub_diag by lia. cbn [nth]. f_equal.
      specialize (IH (qs ++ [p])). rewrite app_length, Nat.add_1_r, <- app_assoc in IH. exact IH. }
    apply (X []).
  Qed.
End Count.

Section Total.
  Variable ne : nat -> list Z -> list Z.
  Hypothesis Hne : nth_element_ok ne.
  Variable hash : name -> Z.
  Variable o : maopts.
  Hypothesis Hpos : (0 < ma_hash o)%nat.
  Hypothesis Hs : 0 < so_step (ao_sep (ma_agg o)) <= i64_max.
  Notation at_ := (sec_at hash o).
  Notation T := (TInv ne hash o).
  Lemma sec_total k bs c b : T k (mk_multi o bs) -> sec_order_ok c -> sec_safe (ma_agg o) c -> Z.of_nat (k + length (sec_values c)) < two64 ->
    nth_error bs (at_ c) = Some b -> exists r b', sec_do ne o c b = Ok (r, b') /\ T (k + length (sec_values c)) (mk_multi o (set_nth (at_ c) b' bs)).
  Proof.
    intros TI OK SF L E. destruct c as [e n d h|n|f h ord i|i]; cbn [sec_values sec_safe sec_do sec_at sec_order_ok length] in *.
    - destruct SF as [-> SF]. destruct (push_total ne Hne hash o Hpos Hs k _ e n d TI SF ltac:(lia)) as (r & l & m1 & P & T1).
      unfold ma_push in P. rewrite (pos_ok _ _ _ n (proj1 TI)) in P. cbn [bind] in P. unfold ma_shard in P. cbn [mu_list mu_opt] in P. rewrite E in P. cbn [bind] in P.
      destruct (bm_push ne (ma_agg o) e n d true b) as [[[r2 l0] b1]| |]; cbn [bind] in *; try discriminate. injection P as <- <- <-. eauto.
    - destruct (bm_del n b) as [r b'] eqn:D. exists (MAns r []), b'. split; auto.
      destruct TI as [I S]. assert (X : ma_do ne hash (MDel n) (mk_multi o bs) = Ok (MAns r [], mk_multi o (set_nth (shard_of hash o n) b' bs))).
      { cbn [ma_do]. unfold ma_del. rewrite (pos_ok _ _ _ n I). cbn [bind]. unfold ma_shard. cbn [mu_list mu_opt]. rewrite E. cbn [bind]. rewrite D. reflexivity. }
      destruct (ma_do_total ne Hne hash o Hpos Hs k _ (MDel n) (conj I S) Logic.I Logic.I L) as (out & m1 & E1 & T1). rewrite X in E1. injection E1 as <- <-. exact T1.
    - destruct TI as [I S]. subst h. rewrite Nat.add_0_r in *.
      assert (SB : forall n g, bm_find n b = Some g -> GSafe ne (ma_agg o) k g).
      { intros n g F. apply (S n). assert (i = shard_of hash o n) as -> by (eapply (get_shard hash o (mk_multi o bs)); eauto). unfold ma_get. cbn [mu_list]. now rewrite E. }
      destruct (loop_total ne Hne o Hpos Hs f k L (ord (map fst b)) b SB) as (l & b' & P & SB'). exists (MRecs l), b'.
      assert (P' : sec_do ne o (SPop f true ord i) b = Ok (MRecs l, b')) by (cbn [sec_do]; unfold bm_pushout; rewrite P; reflexivity).
      split; [exact P'|]. split; [apply (sec_sim ne hash o bs (SPop f true ord i) (MRecs l) b b' [] I OK E P')|].
      intros n g F. unfold ma_get in F. cbn [mu_list] in F. rewrite (nth_set _ _ _ _ _ E) in F. destruct (Nat.eqb_spec (shard_of hash o n) i) as [EQ|NE]; [eapply SB'; eauto|].
      apply (S n). exact F.
    - exists (MSizes (bm_size b) (bm_data_size b)), b. split; auto. rewrite (set_nth_self _ _ _ E), Nat.add_0_r. exact TI.
  Qed.
  Lemma in_turn_total log : forall bs k os, T k (mk_multi o bs) -> Forall (fun x => sec_order_ok (fst x) /\ sec_safe (ma_agg o) (fst x)) log ->
    Z.of_nat (k + total (fun c => length (sec_values c)) log) < two64 -> in_turn at_ (sec_run ne o) (map Ok bs) log os ->
    exists l, log = map (fun x => (fst x, Ok (snd x))) l.
  Proof.
    induction log as [|[c r] log IH]; intros bs k os TI F L H; [exists []; auto|]. inversion F as [|? ? [O1 S1] F2]; subst. inversion H as [|? ? ? b b' ? ? Hn Hr Ht]; subst.
    unfold total in *. cbn [map list_sum fold_right fst] in *. rewrite nth_error_map in Hn. destruct (nth_error bs (at_ c)) as [b0|] eqn:E; [|discriminate]. injection Hn as <-. cbn [sec_run] in Hr.
    destruct (sec_total k bs c b0 TI O1 S1 ltac:(lia) E) as (r1 & b1 & D & T1). rewrite D in Hr. injection Hr as <- <-. rewrite set_nth_map in Ht.
    destruct (IH _ _ os T1 F2) as [l ->]; [unfold list_sum; lia|exact Ht|]. exists ((c, r1) :: l). reflexivity.
  Qed.
End Total.
