(** Property C49: the buffer pool. *)
From Coq Require Import ZArith List Bool Arith Lia Permutation.
From Verif Require Import Base ModelRegistry ModelPool.
Import ListNotations.

(** One owner at a time: what is done with the pool.  [HFree i d c]: the i-th buffer held is given back, filled with [d] and
    of capacity [c]; [HDrop i]: it is destroyed. *)
Inductive hop := HCreate | HFree (i : nat) (d : list Z) (c : nat) | HFreeNull | HDrop (i : nat).
(** The buffers held; the pool *)
Definition h_do (o : hop) (s : list buf * bpool) : outcome (list buf * bpool) :=
  let '(h, q) := s in
  match o with
  | HCreate => '(b, q') <- q_create q ;; Ok (b :: h, q')
  | HFree i d c =>
      match nth_error h i with
      | None => Ok s
      | Some b => if length d <=? c then Ok (remove_at i h, snd (q_free (Some (mk_buf (b_id b) d c)) q)) else Ok s
      end
  | HFreeNull => Ok (h, snd (q_free None q))
  | HDrop i => Ok (remove_at i h, q)
  end.
Fixpoint h_run (os : list hop) (s : list buf * bpool) : outcome (list buf * bpool) :=
  match os with [] => Ok s | o :: r => s1 <- h_do o s ;; h_run r s1 end.

(** [m'] is part of [m], counted with repetitions *)
Definition submultiset {A} (m' m : list A) : Prop := exists z, Permutation (m' ++ z) m.
Definition good (item : nat) (b : buf) : Prop := b_data b = [] /\ item <= b_cap b <= 2 * item.
Definition sound (b : buf) : Prop := length (b_data b) <= b_cap b.
Lemma clean_good q b : sound b -> good (q_item q) (q_clean q b).
Proof. unfold sound, good, q_clean, q_cap. intros S. cbn. split; [reflexivity|]. destruct (Nat.leb_spec (q_item q) (b_cap b)); lia. Qed.
Lemma good_sound item b : good item b -> sound b.
Proof. intros [D _]. unfold sound. rewrite D. cbn. lia. Qed.

Lemma remove_at_incl {A} i (l : list A) x : In x (remove_at i l) -> In x l.
Proof. revert i. induction l as [|y l IH]; intros [|i]; simpl; auto. intros [H|H]; eauto. Qed.
Lemma nodup_left {A} (l m : list A) : NoDup (l ++ m) -> NoDup l.
Proof. induction l as [|x l IH]; intros H; [constructor|]. inversion H; subst. constructor; [|auto]. intros X. apply H2, in_app_iff. auto. Qed.
Lemma remove_at_perm {A} i (l : list A) x : nth_error l i = Some x -> Permutation l (x :: remove_at i l).
Proof.
  revert i. induction l as [|y l IH]; intros [|i] H; simpl in *; try discriminate.
  - injection H as <-. reflexivity.
  - rewrite (IH i H) at 1. apply perm_swap.
Qed.
Lemma remove_at_nodup {A} i (l m : list A) : NoDup (l ++ m) -> NoDup (remove_at i l ++ m).
Proof.
  revert i. induction l as [|y l IH]; intros [|i] H; simpl in *; auto; inversion H; subst; auto.
  constructor; [|auto]. intros X. apply H2. apply in_app_iff in X. apply in_app_iff. destruct X as [X|X]; [left; eapply remove_at_incl; exact X|auto].
Qed.
Lemma map_remove_at {A B} (f : A -> B) i l : map f (remove_at i l) = remove_at i (map f l).
Proof. revert i. induction l as [|y l IH]; intros [|i]; simpl; auto. now rewrite IH. Qed.

Record HInv (item max : nat) (s : list buf * bpool) : Prop := {
  hi_item : q_item (snd s) = item;
  hi_max : q_max (snd s) = max;
  hi_le : (length (q_pool (snd s)) <= max)%nat;
  hi_good : Forall (good item) (q_pool (snd s));
  hi_nodup : NoDup (map b_id (fst s) ++ map b_id (q_pool (snd s)));
  hi_next : Forall (fun i => (i < q_next (snd s))%nat) (map b_id (fst s) ++ map b_id (q_pool (snd s))) }.

Lemma h_do_inv item max o s s' : HInv item max s -> h_do o s = Ok s' ->
  HInv item max s' /\ (o = HCreate -> exists b, fst s' = b :: fst s /\ good item b).
Proof.
  intros [A B C D E F] H. destruct s as [h q]. cbn [fst snd] in *. destruct o; cbn in H.
  - unfold q_create, q_empty, q_take in H. destruct (q_pool q) as [|b r] eqn:P; cbn in H; injection H as <-.
    + assert (G : good item (mk_buf (q_next q) [] (q_item q))) by (split; cbn; [auto|lia]).
      split; [|intros _; cbn; eauto]. constructor; cbn; rewrite ?P; auto.
      * cbn in E. constructor; [|exact E]. cbn. intros X. cbn in F. rewrite Forall_forall in F. apply F in X. lia.
      * cbn in F. constructor; [lia|]. eapply Forall_impl; [|exact F]. cbn. intros; lia.
    + inversion D; subst. split; [|intros _; cbn; eauto]. constructor; cbn; auto.
      * cbn in C. lia.
      * cbn in E. apply (Permutation_NoDup (Permutation_sym (Permutation_middle _ _ _))) in E. exact E.
      * cbn in F. rewrite Forall_app in F. destruct F as [F1 F2]. inversion F2; subst. constructor; [auto|]. apply Forall_app. auto.
  - destruct (nth_error h i) as [b|] eqn:N; [|injection H as <-; split; [constructor; auto|discriminate]].
    destruct (Nat.leb_spec (length d) c) as [LC|LC]; [|injection H as <-; split; [constructor; auto|discriminate]].
    injection H as <-. split; [|discriminate]. unfold q_filled. pose proof (remove_at_perm i h b N) as PE.
    assert (E' : NoDup (map b_id (remove_at i h) ++ map b_id (q_pool q))) by (rewrite map_remove_at; now apply remove_at_nodup).
    assert (F' : Forall (fun i => (i < q_next q)%nat) (map b_id (remove_at i h) ++ map b_id (q_pool q))).
    { rewrite Forall_forall in *. intros x Hx. apply F. rewrite map_remove_at in Hx. apply in_app_iff in Hx. apply in_app_iff. destruct Hx as [Hx|Hx]; [left; eapply remove_at_incl; exact Hx|auto]. }
    destruct (Nat.eqb_spec (length (q_pool q)) (q_max q)) as [L|L]; constructor; cbn; auto.
    + lia.
    + constructor; [rewrite <- A; apply clean_good; exact LC|exact D].
    + apply (Permutation_NoDup (Permutation_middle _ _ _)).
      apply (Permutation_NoDup (l := map b_id h ++ map b_id (q_pool q))); [|exact E]. apply (Permutation_map b_id) in PE. cbn in PE. rewrite PE. reflexivity.
    + apply Forall_app in F'. destruct F' as [F1 F2]. apply Forall_app. split; [exact F1|]. constructor; [|exact F2].
      rewrite Forall_forall in F. apply F, in_app_iff. left. apply in_map. eapply nth_error_In. exact N.
  - injection H as <-. split; [constructor; auto|discriminate].
  - injection H as <-. split; [|discriminate]. constructor; cbn; auto.
    + rewrite map_remove_at. now apply remove_at_nodup.
    + rewrite Forall_forall in *. intros x Hx. apply F. rewrite map_remove_at in Hx. apply in_app_iff in Hx. apply in_app_iff. destruct Hx as [Hx|Hx]; [left; eapply remove_at_incl; exact Hx|auto].
Qed.

Lemma h_run_inv item max os s s' : HInv item max s -> h_run os s = Ok s' -> HInv item max s'.
Proof.
  revert s. induction os as [|o os IH]; intros s I H; cbn in H; [injection H as <-; exact I|].
  destruct (h_do o s) as [s1| |] eqn:E; try discriminate. cbn in H. apply (IH s1); [|exact H]. eapply h_do_inv; eassumption.
Qed.
Lemma h_new_inv item max : HInv item max ([], q_new item max).
Proof. constructor; cbn; auto; try lia; constructor. Qed.

(** Used by one thread at a time: never more than pool_size buffers, of item_size to twice as much, in the pool, only empty buffers are handed
    out, and a buffer has one owner: those held and those in the pool are all different. *)
Theorem C49_sequential : forall item max os h q, h_run os ([], q_new item max) = Ok (h, q) ->
  (length (q_pool q) <= max)%nat /\ Forall (fun b => b_data b = [] /\ item <= b_cap b <= 2 * item) (q_pool q) /\
  NoDup (map b_id h ++ map b_id (q_pool q)) /\
  exists b q', q_create q = Ok (b, q') /\ b_data b = [] /\ ~ In (b_id b) (map b_id h).
Proof.
  intros item max os h q H. pose proof (h_run_inv item max os _ _ (h_new_inv item max) H) as I. destruct I as [A B C D E F]. cbn [fst snd] in *.
  split; [exact C|]. split; [exact D|]. split; [exact E|]. unfold q_create, q_empty, q_take. destruct (q_pool q) as [|b r] eqn:P.
  - eexists _, _. split; [reflexivity|]. split; [reflexivity|]. cbn. intros X. rewrite Forall_forall in F. specialize (F _ (proj2 (in_app_iff _ _ _) (or_introl X))). lia.
  - eexists _, _. split; [reflexivity|]. inversion D as [|? ? G]; subst. split; [apply G|]. cbn in E.
    apply NoDup_remove_2 in E. intros X. apply E. apply in_app_iff. auto.
Qed.
Print Assumptions C49_sequential.

(** free() gives the buffer back untouched exactly when the pool is full, and keeps it otherwise. *)
Theorem C49_free_result : forall item max os h q b, h_run os ([], q_new item max) = Ok (h, q) ->
  (length (q_pool q) = max -> q_free (Some b) q = (Some b, q)) /\
  ((length (q_pool q) < max)%nat -> exists q', q_free (Some b) q = (None, q') /\ map b_id (q_pool q') = b_id b :: map b_id (q_pool q)) /\
  q_free None q = (None, q).
Proof.
  intros item max os h q b H. pose proof (h_run_inv item max os _ _ (h_new_inv item max) H) as I. destruct I as [A B C D E F]. cbn [fst snd] in *.
  unfold q_free, q_filled. split; [|split; [|reflexivity]].
  - intros L. rewrite L, B, Nat.eqb_refl. reflexivity.
  - intros L. destruct (Nat.eqb_spec (length (q_pool q)) (q_max q)); [lia|]. eexists. split; [reflexivity|]. reflexivity.
Qed.
Print Assumptions C49_free_result.

(** It never goes wrong. *)
Theorem C49_sequential_defined : forall os s, exists s', h_run os s = Ok s'.
Proof.
  induction os as [|o os IH]; intros s; cbn; [eauto|]. assert (X : exists s1, h_do o s = Ok s1).
  { destruct s as [h q], o; cbn; eauto.
    - unfold q_create, q_empty, q_take. destruct (q_pool q); cbn; eauto.
    - destruct (nth_error h i); [destruct (_ <=? _)|]; eauto. }
  destruct X as [s1 ->]. cbn. apply IH.
Qed.
Print Assumptions C49_sequential_defined.

Example C49_witness : exists h q, h_run [HCreate; HCreate; HCreate; HFree 0 [1; 2]%Z 99; HFree 0 [3]%Z 4; HFree 0 [] 0; HCreate] ([], q_new 8 2) = Ok (h, q) /\
  map b_id h = [1]%nat /\ q_pool q = [mk_buf 2 [] 8].
Proof. eexists _, _. split; [vm_compute; reflexivity|]. vm_compute. auto. Qed.

(** A buffer that came back smaller is kept larger than item_size. *)
Example C49_larger_witness : exists h q, h_run [HCreate; HFree 0 [1; 2; 3; 4; 5]%Z 5] ([], q_new 8 2) = Ok (h, q) /\ q_pool q = [mk_buf 0 [] 10].
Proof. eexists _, _. split; vm_compute; reflexivity. Qed.

(** Several threads *)
Definition in_hand (t : qthread) : list buf := q_held t ++ match q_pc t with QPut b => [b] | _ => [] end.
Definition all_ids (s : qstate) : list nat := map b_id (flat_map in_hand (qs_threads s) ++ q_pool (qs_pool s)).

Record QInv (item : nat) (s : qstate) : Prop := {
  qi_item : q_item (qs_pool s) = item;
  qi_good : Forall (good item) (q_pool (qs_pool s));
  qi_held : Forall (fun t => Forall sound (q_held t)) (qs_threads s);
  qi_put : Forall (fun t => match q_pc t with QPut b => good item b | _ => True end) (qs_threads s);
  qi_nodup : NoDup (all_ids s);
  qi_next : Forall (fun i => (i < q_next (qs_pool s))%nat) (all_ids s) }.

Lemma q_step_inv item q l t r a q' t' : QInv item (mk_qstate q (l ++ t :: r)) -> q_step a q t = Ok (Some (q', t')) ->
  QInv item (mk_qstate q' (l ++ t' :: r)).
Proof.
  intros [A B SH C D E] H. unfold all_ids in *. cbn [qs_pool qs_threads] in *.
  assert (W : forall t, Permutation (flat_map in_hand (l ++ t :: r)) (in_hand t ++ flat_map in_hand (l ++ r))).
  { intros u. rewrite !flat_map_app. cbn. rewrite app_assoc, (Permutation_app_comm _ (in_hand u)), <- app_assoc. reflexivity. }
  assert (D' : NoDup (map b_id (in_hand t ++ flat_map in_hand (l ++ r) ++ q_pool q))).
  { eapply Permutation_NoDup; [|exact D]. apply Permutation_map. rewrite app_assoc. apply Permutation_app_tail, W. }
  assert (E' : forall x, In x (map b_id (in_hand t ++ flat_map in_hand (l ++ r) ++ q_pool q)) -> (x < q_next q)%nat).
  { intros x Hx. rewrite Forall_forall in E. apply E. eapply Permutation_in; [|exact Hx]. apply Permutation_map. rewrite app_assoc. apply Permutation_app_tail. symmetry. apply W. }
  clear D E. set (O := flat_map in_hand (l ++ r)) in *.
  assert (Fin : q_item q' = item -> Forall (good item) (q_pool q') -> Forall sound (q_held t') -> (match q_pc t' with QPut b => good item b | _ => True end) ->
    NoDup (map b_id (in_hand t' ++ O ++ q_pool q')) -> (forall x, In x (map b_id (in_hand t' ++ O ++ q_pool q')) -> (x < q_next q')%nat) ->
    QInv item (mk_qstate q' (l ++ t' :: r))).
  { intros F1 F2 FS F3 F4 F5. constructor; unfold all_ids; cbn [qs_pool qs_threads]; auto.
    - apply Forall_app in SH. destruct SH as [C1 C2]. inversion C2; subst. apply Forall_app. split; [exact C1|]. now constructor.
    - apply Forall_app in C. destruct C as [C1 C2]. inversion C2; subst. apply Forall_app. split; [exact C1|]. now constructor.
    - eapply Permutation_NoDup; [|exact F4]. apply Permutation_map. rewrite app_assoc. apply Permutation_app_tail. symmetry. apply W.
    - apply Forall_forall. intros x Hx. apply F5. eapply Permutation_in; [|exact Hx]. apply Permutation_map. rewrite (app_assoc _ O). apply Permutation_app_tail, W. }
  assert (PT : match q_pc t with QPut b => good item b | _ => True end).
  { rewrite Forall_forall in C. apply C, in_app_iff. right. left. reflexivity. }
  assert (ST : Forall sound (q_held t)) by (rewrite Forall_forall in SH; apply SH, in_app_iff; right; left; reflexivity).
  assert (SR : forall i, Forall sound (remove_at i (q_held t))).
  { intros i. rewrite Forall_forall in *. intros x X. apply ST. eapply remove_at_incl; exact X. }
  (* equal or smaller collections of buffers *)
  assert (Sub : forall m m', submultiset (map b_id m') (map b_id m) -> NoDup (map b_id m) -> NoDup (map b_id m')).
  { intros m m' [z P] N. eapply Permutation_NoDup in N; [|symmetry; exact P]. exact (nodup_left _ _ N). }
  assert (SubI : forall m m' x, submultiset (map b_id m') (map b_id m) -> In x (map b_id m') -> In x (map b_id m)).
  { intros m m' x [z P] N. eapply Permutation_in; [exact P|]. apply in_app_iff. auto. }
  destruct t as [p h]. unfold in_hand in *. cbn [q_pc q_held] in *.
  destruct a, p; cbn in H; try discriminate.
  - (* create *) unfold q_empty in H. destruct (q_pool q) as [|x pl] eqn:P; injection H as <- <-; apply Fin; cbn; rewrite ?P; auto.
    + constructor; [unfold sound; cbn; lia|exact ST].
    + cbn in D'. constructor; [|exact D']. intros X. apply E' in X. lia.
    + intros x [<-|X]; [lia|]. apply E' in X. lia.
  - (* free *) destruct (nth_error h i) as [b|] eqn:N; [|discriminate]. pose proof (remove_at_perm i h b N) as PE.
    destruct (q_filled q); injection H as <- <-; apply Fin; cbn; auto.
    + eapply Sub; [|exact D']. exists [b_id b]. rewrite !app_nil_r. apply (Permutation_map b_id) in PE. cbn in PE. rewrite !map_app, PE. cbn.
      symmetry. apply Permutation_cons_append.
    + intros x X. apply E'. eapply SubI; [|exact X]. exists [b_id b]. rewrite !app_nil_r. apply (Permutation_map b_id) in PE. cbn in PE. rewrite !map_app, PE. cbn.
      symmetry. apply Permutation_cons_append.
    + rewrite <- A. apply clean_good. rewrite Forall_forall in ST. apply ST. eapply nth_error_In; exact N.
    + eapply Sub; [|exact D']. exists []. rewrite !app_nil_r. rewrite !map_app. apply (Permutation_map b_id) in PE. cbn in *. rewrite PE. cbn.
      rewrite <- app_assoc. cbn. symmetry. apply Permutation_middle.
    + intros x X. apply E'. eapply SubI; [|exact X]. exists []. rewrite !app_nil_r. rewrite !map_app. apply (Permutation_map b_id) in PE. cbn in *. rewrite PE. cbn.
      rewrite <- app_assoc. cbn. symmetry. apply Permutation_middle.
  - (* take *) unfold q_take in H. destruct (q_pool q) as [|x pl] eqn:P; cbn in H; [discriminate|]. injection H as <- <-. inversion B; subst. apply Fin; cbn; auto.
    + constructor; [eapply good_sound; eassumption|exact ST].
    + eapply (Sub _ (x :: h ++ [] ++ O ++ pl)) in D'; [rewrite app_nil_r; exact D'|]. exists []. rewrite app_nil_r. apply Permutation_map. rewrite !app_nil_r. cbn.
      rewrite !app_assoc. apply Permutation_middle.
    + intros y X. apply E'. eapply (SubI _ (x :: h ++ [] ++ O ++ pl)); [|rewrite app_nil_r in X; exact X]. exists []. rewrite app_nil_r. apply Permutation_map. rewrite !app_nil_r. cbn.
      rewrite !app_assoc. apply Permutation_middle.
  - (* put *) injection H as <- <-. apply Fin; cbn; auto.
    + eapply (Sub _ (h ++ [] ++ O ++ b :: q_pool q)) in D'; [rewrite app_nil_r; exact D'|]. exists []. rewrite app_nil_r. apply Permutation_map. rewrite <- app_assoc. apply Permutation_app_head. cbn.
      symmetry. apply Permutation_middle.
    + intros y X. apply E'. eapply (SubI _ (h ++ [] ++ O ++ b :: q_pool q)); [|rewrite app_nil_r in X; exact X]. exists []. rewrite app_nil_r. apply Permutation_map. rewrite <- app_assoc. apply Permutation_app_head. cbn.
      symmetry. apply Permutation_middle.
  - (* write *) destruct (nth_error h i) as [b|] eqn:N; [|discriminate]. pose proof (remove_at_perm i h b N) as PE.
    destruct (Nat.leb_spec (length d) c) as [LC|LC]; [|discriminate]. injection H as <- <-. apply Fin; cbn; auto.
    + eapply (Sub _ (b :: (remove_at i h ++ []) ++ O ++ q_pool q)); [|exact D']. exists []. rewrite !app_nil_r. apply Permutation_map. exact (Permutation_app_tail _ (Permutation_sym PE)).
    + intros x X. apply E'. eapply (SubI _ (b :: (remove_at i h ++ []) ++ O ++ q_pool q)); [|exact X]. exists []. rewrite !app_nil_r. apply Permutation_map. exact (Permutation_app_tail _ (Permutation_sym PE)).
Qed.

Lemma qreach_inv item max n s : qreach item max n s -> match s with Ok s => QInv item s | _ => True end.
Proof.
  intros H. induction H as [|s s' H IH St].
  - assert (Z0 : flat_map in_hand (repeat (mk_qthread QIdle []) n) = []) by (induction n; cbn; auto).
    constructor; unfold all_ids; cbn; rewrite ?Z0; auto; try constructor.
    + apply Forall_forall. intros t Ht. apply repeat_spec in Ht. subst t. constructor.
    + apply Forall_forall. intros t Ht. apply repeat_spec in Ht. subst t. exact I.
  - destruct St as [q l t r a q' t' T|]; [|exact I]. eapply q_step_inv; eassumption.
Qed.

(** Any number of threads, each call divided as the code divides it: buffers in the pool are empty, and no buffer has two
    owners - as long as the behaviour is defined. *)
Theorem C49_concurrent_partial : forall item max n s, qreach item max n (Ok s) ->
  Forall (fun b => b_data b = [] /\ item <= b_cap b <= 2 * item) (q_pool (qs_pool s)) /\ NoDup (all_ids s).
Proof. intros item max n s H. apply qreach_inv in H. destruct H. split; assumption. Qed.
Print Assumptions C49_concurrent_partial.

(** Scheduling by thread number *)
Fixpoint q_exec (l : list (nat * qact)) (s : qstate) : outcome qstate :=
  match l with
  | [] => Ok s
  | (i, a) :: r =>
      match nth_error (qs_threads s) i with
      | None => Exn
      | Some t => x <- q_step a (qs_pool s) t ;;
                  match x with None => Exn | Some (q', t') => q_exec r (mk_qstate q' (set_nth i t' (qs_threads s))) end
      end
  end.
Lemma q_exec_reach item max n l : forall s s', qreach item max n (Ok s) -> q_exec l s = s' -> s' <> Exn -> qreach item max n s'.
Proof.
  induction l as [|[i a] l IH]; intros s s' H E N; cbn in E; [subst; exact H|].
  destruct (nth_error (qs_threads s) i) as [t|] eqn:T; [|congruence]. destruct s as [q ts]. cbn [qs_pool qs_threads] in *.
  apply nth_error_split in T. destruct T as (a0 & b0 & -> & <-).
  assert (X : forall x y, set_nth (length a0) x (a0 ++ y :: b0) = a0 ++ x :: b0) by (intros; clear; induction a0; simpl; [reflexivity|now f_equal]).
  destruct (q_step a q t) as [[[q' t']|]| |] eqn:St; cbn in E; try congruence.
  - rewrite X in E. apply (IH _ _ (qr_step _ _ _ _ _ H (qs_ok _ _ _ _ _ _ _ St)) E N).
  - subst s'. exact (qr_step _ _ _ _ _ H (qs_ub _ _ _ _ _ St)).
Qed.

(** Two threads see one buffer in the pool and both take it: undefined behaviour. *)
Theorem C49_double_take_refuted : qreach 8 4 2 Ub.
Proof.
  eapply q_exec_reach with (l := [(0, QCreate); (0, QFree 0); (0, QGo); (0, QCreate); (1, QCreate); (0, QGo); (1, QGo)]%nat);
    [apply qr_init|vm_compute; reflexivity|discriminate].
Qed.
Print Assumptions C49_double_take_refuted.

(** Two threads see the last free place and both put a buffer.  Since the test is for equality the pool, once over
    pool_size, keeps every buffer it is given: its size has no bound. *)
Theorem C49_unbounded_refuted : forall k, exists s, qreach 8 1 2 (Ok s) /\ (k < length (q_pool (qs_pool s)))%nat.
Proof.
  assert (G1 : forall k, exists q h b, qreach 8 1 2 (Ok (mk_qstate q [mk_qthread QIdle h; mk_qthread QIdle [b]])) /\
    length h = S k /\ q_pool q = [] /\ q_max q = 1%nat).
  { induction k as [|k (q & h & b & R & L & P & M)].
    - eexists _, _, _. split; [eapply q_exec_reach with (l := [(0, QCreate); (1, QCreate)]%nat); [apply qr_init|vm_compute; reflexivity|discriminate]|].
      vm_compute. auto.
    - exists (snd (q_fresh q)), (fst (q_fresh q) :: h), b. split; [|cbn; rewrite L; auto].
      eapply q_exec_reach with (l := [(0%nat, QCreate)]); [exact R| |discriminate]. cbn. unfold q_empty. rewrite P. reflexivity. }
  assert (G2 : forall k, exists q h, qreach 8 1 2 (Ok (mk_qstate q [mk_qthread QIdle h; mk_qthread QIdle []])) /\
    length h = k /\ length (q_pool q) = 2%nat /\ q_max q = 1%nat).
  { intros k. destruct (G1 k) as (q & [|x h] & b & R & L & P & M); [discriminate|]. cbn in L. injection L as L.
    destruct q as [it mx pl nx]. cbn in P, M. subst pl mx. set (q := mk_bpool it 1 [] nx) in *.
    exists (q_put (q_clean q b) (q_put (q_clean q x) q)), h. split; [|cbn; auto].
    eapply q_exec_reach with (l := [(0, QFree 0); (1, QFree 0); (0, QGo); (1, QGo)]%nat); [exact R|reflexivity|discriminate]. }
  assert (G3 : forall h q, qreach 8 1 2 (Ok (mk_qstate q [mk_qthread QIdle h; mk_qthread QIdle []])) -> (2 <= length (q_pool q))%nat -> q_max q = 1%nat ->
    exists s, qreach 8 1 2 (Ok s) /\ length (q_pool (qs_pool s)) = (length h + length (q_pool q))%nat).
  { induction h as [|x h IH]; intros q R L M; [eexists; split; [exact R|reflexivity]|].
    destruct (IH (q_put (q_clean q x) q)) as (s & R' & L'); [|cbn; lia|exact M|exists s; split; [exact R'|rewrite L'; cbn; lia]].
    eapply q_exec_reach with (l := [(0, QFree 0); (0, QGo)]%nat); [exact R| |discriminate].
    cbn. unfold q_filled. rewrite M. destruct (length (q_pool q)) as [|[|m]]; [lia|lia|reflexivity]. }
  intros k. destruct (G2 k) as (q & h & R & L & P & M). destruct (G3 h q R ltac:(lia) M) as (s & R' & L'). exists s. split; [exact R'|]. lia.
Qed.
Print Assumptions C49_unbounded_refuted.

Example C49_concurrent_witness : exists s, qreach 8 4 2 (Ok s) /\ length (q_pool (qs_pool s)) = 1%nat /\ length (all_ids s) = 4%nat.
Proof.
  eexists. split; [eapply q_exec_reach with (l := [(0, QCreate); (1, QCreate); (0, QWrite 0 [7; 8]%Z 20); (0, QFree 0); (1, QCreate); (1, QCreate); (0, QGo)]%nat);
    [apply qr_init|vm_compute; reflexivity|discriminate]|]. vm_compute. auto.
Qed.
