(** Callbacks that come back to the lock they are called under: they never return, whatever the other threads do (C59). *)
From Coq Require Import List Bool Arith Lia.
From Verif Require Import ModelLocks PropsLocks.
Import ListNotations.

(** The call locks the registry. *)
Definition wants_registry (c : call) : Prop :=
  match c with KAg _ _ => False | KPush _ ps => In PName ps | _ => True end.
(** The call locks aggregator [i]. *)
Definition wants_aggregator (i : nat) (c : call) : Prop :=
  match c with
  | KRead | KWrite _ => False
  | KAg j _ | KPush j _ | KById j _ => j = i
  | KPopAll l => In i (map fst l)
  | KEnable l => In i l
  end.

(** No release of [l] before [l] is asked for. *)
Fixpoint asks_first (l : lk) (p : list act) : Prop :=
  match p with
  | [] => True
  | Acq k _ :: t => k = l \/ asks_first l t
  | Rel k _ :: t => k <> l /\ asks_first l t
  end.
Definition asks (l : lk) (p : list act) : Prop := exists m, In (Acq l m) p.
Lemma asks_first_app l p q : asks_first l p -> asks_first l q -> asks_first l (p ++ q).
Proof. induction p as [|[k m|k m] p IH]; cbn; tauto. Qed.
Lemma asks_first_sect l k m p : asks_first l p -> asks_first l (sect k m p).
Proof.
  intros H. unfold sect. cbn. destruct (lk_eq_dec k l); [now left|]. right. apply asks_first_app; auto. cbn. auto.
Qed.
Lemma asks_first_flat {A} l (f : A -> list act) xs : (forall x, asks_first l (f x)) -> asks_first l (flat_map f xs).
Proof. intros H. induction xs as [|x xs IH]; cbn; auto. apply asks_first_app; auto. Qed.
Lemma asks_first_pool l ps : asks_first l (pool_acts ps).
Proof. apply asks_first_flat. intros m. apply asks_first_sect. cbn. auto. Qed.
Lemma asks_first_call l c : asks_first l (call_acts c).
Proof.
  destruct c as [|ps|i ps|i ps|i ps|xs|xs]; cbn [call_acts].
  - apply asks_first_sect. cbn. auto.
  - apply asks_first_sect, asks_first_pool.
  - apply asks_first_sect, asks_first_pool.
  - apply asks_first_sect. apply asks_first_flat. intros [m|]; apply asks_first_sect; cbn; auto.
  - apply (asks_first_app l (sect LReg Rd [])); apply asks_first_sect; [cbn; auto|apply asks_first_pool].
  - apply asks_first_sect, asks_first_flat. intros [j [a b]]. cbn [fst snd].
    apply asks_first_app; [apply asks_first_sect; cbn; auto|]. apply asks_first_app; apply asks_first_sect, asks_first_pool.
  - apply asks_first_sect, asks_first_flat. intros j. apply asks_first_sect. cbn. auto.
Qed.
Lemma asks_flat {A} l (f : A -> list act) xs x : In x xs -> asks l (f x) -> asks l (flat_map f xs).
Proof. intros I [m H]. exists m. apply in_flat_map. eauto. Qed.
Lemma asks_sect_in l k m p : asks l p -> asks l (sect k m p).
Proof. intros [n H]. exists n. right. apply in_or_app. auto. Qed.
Lemma asks_registry c : wants_registry c -> asks LReg (call_acts c).
Proof.
  destruct c as [|ps|i ps|i ps|i ps|xs|xs]; cbn [wants_registry call_acts]; intros H; try contradiction; try (eexists; left; reflexivity).
  apply asks_sect_in. apply (asks_flat _ _ _ PName H). eexists; left; reflexivity.
Qed.
Lemma asks_aggregator i c : wants_aggregator i c -> asks (LAg i) (call_acts c).
Proof.
  destruct c as [|ps|j ps|j ps|j ps|xs|xs]; cbn [wants_aggregator call_acts]; intros H; try contradiction.
  - subst j. eexists; left; reflexivity.
  - subst j. eexists; left; reflexivity.
  - subst j. eexists. apply in_or_app. right. left. reflexivity.
  - apply in_map_iff in H. destruct H as (x & <- & I). apply asks_sect_in. apply (asks_flat _ _ _ x I). exists Wr. apply in_or_app. right. left. reflexivity.
  - apply asks_sect_in. apply (asks_flat _ _ _ i H). eexists; left; reflexivity.
Qed.

Lemma asks_first_more l p q : asks_first l p -> asks l p -> asks_first l (p ++ q).
Proof.
  induction p as [|[k m|k m] p IH]; cbn; intros A [n S]; [contradiction| |].
  - destruct A as [A|A]; [now left|]. destruct S as [S|S]; [left; congruence|]. right. apply IH; [auto|exists n; auto].
  - destruct A as [N A]. destruct S as [S|S]; [discriminate|]. split; auto. apply IH; [auto|exists n; auto].
Qed.

(** Before it comes to [rest], the thread has not taken the lock yet, or it has it and will ask for it again before it gives it back. *)
Definition hopeless (l : lk) (rest : list act) (t : lthread) : Prop :=
  exists q, l_prog t = q ++ rest /\ ((exists p, q = Acq l Wr :: p /\ asks_first l p /\ asks l p) \/ (In (l, Wr) (l_held t) /\ asks_first l q /\ asks l q)).
Lemma in_remove1 x y h : x <> y -> In x h -> In x (remove1 y h).
Proof.
  intros N. induction h as [|z h IH]; cbn; auto. intros [->|I]; destruct (held_eq_dec y _); subst; cbn; auto. congruence.
Qed.
Lemma hopeless_acq l rest a h k m p b : hopeless l rest (mk_lthread h (Acq k m :: p)) -> compatible k m (all_held (a ++ mk_lthread h (Acq k m :: p) :: b)) ->
  hopeless l rest (mk_lthread ((k, m) :: h) p).
Proof.
  intros (q & E & [(p' & -> & A & S)|(I & A & [n S])]) C; cbn [l_prog l_held] in *.
  - injection E as -> -> ->. exists p'. cbn [l_prog l_held]. split; [reflexivity|]. right. split; [now left|auto].
  - assert (N : k <> l).
    { intros ->. assert (J : In (l, Wr) (all_held (a ++ mk_lthread h (Acq l m :: p) :: b))) by (unfold all_held; apply in_flat_map; eexists; split; [apply in_elt|exact I]).
      destruct m; cbn in C; tauto. }
    destruct q as [|x q]; [destruct S|]. injection E as <- ->. exists q. cbn [l_prog l_held]. split; [reflexivity|]. right. split; [now right|].
    split; [destruct A; [contradiction|auto]|]. exists n. destruct S as [S|S]; [congruence|auto].
Qed.
Lemma hopeless_rel l rest h k m p : hopeless l rest (mk_lthread h (Rel k m :: p)) -> hopeless l rest (mk_lthread (remove1 (k, m) h) p).
Proof.
  intros (q & E & [(p' & -> & A & S)|(I & A & [n S])]); cbn [l_prog l_held] in *; [discriminate|].
  destruct q as [|x q]; [destruct S|]. injection E as <- ->. destruct A as [N A]. exists q. cbn [l_prog l_held]. split; [reflexivity|].
  right. split; [apply in_remove1; [congruence|auto]|]. split; [auto|]. exists n. destruct S as [S|S]; [congruence|auto].
Qed.
Lemma nth_swap {A} (a : list A) x y b k t : nth_error (a ++ y :: b) k = Some t -> (k = length a /\ t = y) \/ nth_error (a ++ x :: b) k = Some t.
Proof.
  intros H. destruct (Nat.lt_trichotomy k (length a)) as [L|[L|L]].
  - right. rewrite nth_error_app1 in H |- * by auto. auto.
  - left. subst k. rewrite nth_error_app2, Nat.sub_diag in H by auto. cbn in H. injection H as ->. auto.
  - right. rewrite nth_error_app2 in H |- * by lia. destruct (k - length a)%nat eqn:E; [lia|]. exact H.
Qed.
Lemma nth_mid {A} (a : list A) x b : nth_error (a ++ x :: b) (length a) = Some x.
Proof. rewrite nth_error_app2, Nat.sub_diag by auto. reflexivity. Qed.
Lemma hopeless_step l rest k s s' : lstep s s' -> (exists t, nth_error s k = Some t /\ hopeless l rest t) -> exists t, nth_error s' k = Some t /\ hopeless l rest t.
Proof.
  intros [a h q m p b C|a h q m p b C] (t & E & H).
  - destruct (nth_swap a (mk_lthread ((q, m) :: h) p) _ b k t E) as [[-> ->]|E'].
    + eexists. split; [apply nth_mid|]. eapply hopeless_acq; eauto.
    + eauto.
  - destruct (nth_swap a (mk_lthread (remove1 (q, m) h) p) _ b k t E) as [[-> ->]|E'].
    + eexists. split; [apply nth_mid|]. eapply hopeless_rel; eauto.
    + eauto.
Qed.
Lemma never l body a h rest b s : asks_first l body -> asks l body -> lsteps (a ++ mk_lthread h (sect l Wr body ++ rest) :: b) s ->
  exists t, nth_error s (length a) = Some t /\ (length rest < length (l_prog t))%nat.
Proof.
  intros A B S. assert (H : exists t, nth_error s (length a) = Some t /\ hopeless l rest t).
  { remember (a ++ _ :: b) as s0 eqn:E0. induction S as [s|s1 s2 s3 S IH ST]; [|eapply hopeless_step; [exact ST|auto]].
    subst s. eexists. split; [apply nth_mid|]. eexists. split; [reflexivity|]. left. eexists. split; [reflexivity|].
    split; [apply asks_first_more; auto|]. destruct B as [n B]. exists n. apply in_or_app. auto. }
  destruct H as (t & E & q & P & H). exists t. split; [auto|]. rewrite P, app_length.
  destruct q as [|x q]; [|cbn; lia]. destruct H as [(p & X & _)|(_ & _ & n & X)]; [discriminate|contradiction].
Qed.

(** A push() to aggregator [i] whose handler makes, among other calls, one that locks aggregator [i], does not end: whatever the thread holds and
    was going to do afterwards ([rest]), whatever the other threads do, in every schedule. *)
Theorem C59_own_aggregator : forall i cs c a h rest b s, In c cs -> wants_aggregator i c ->
  lsteps (a ++ mk_lthread h (callback_acts i cs ++ rest) :: b) s -> exists t, nth_error s (length a) = Some t /\ (length rest < length (l_prog t))%nat.
Proof.
  intros i cs c a h rest b s I W S. eapply never; [| |exact S]; [apply asks_first_flat, asks_first_call|].
  eapply asks_flat; [exact I|]. apply asks_aggregator, W.
Qed.
Print Assumptions C59_own_aggregator.
(** The same for a creation whose initializer makes a call that locks the registry. *)
Theorem C59_own_registry : forall cs c a h rest b s, In c cs -> wants_registry c ->
  lsteps (a ++ mk_lthread h (initializer_acts cs ++ rest) :: b) s -> exists t, nth_error s (length a) = Some t /\ (length rest < length (l_prog t))%nat.
Proof.
  intros cs c a h rest b s I W S. eapply never; [| |exact S]; [apply asks_first_flat, asks_first_call|].
  eapply asks_flat; [exact I|]. apply asks_registry, W.
Qed.
Print Assumptions C59_own_registry.
(** Both, in a program that has gone on for a while: the handler has used aggregator 1 and now waits for its own; the other thread has finished. *)
Example C59_own_witness :
  (exists s t, lsteps ([mk_lthread [] (call_acts (KAg 2 []))] ++ mk_lthread [] (callback_acts 0 [KAg 1 []; KPopAll [(0, ([], []))]] ++ call_acts KRead) :: [])%nat s /\
     nth_error s 1 = Some t /\ l_held t = [(LReg, Rd); (LAg 0, Wr)] /\ deadlock s) /\
  (exists s t, lsteps ([] ++ mk_lthread [] (initializer_acts [KAg 0 [Rd]; KPush 1 [PPool Wr; PName]] ++ []) :: [])%nat s /\
     nth_error s 0 = Some t /\ l_held t = [(LAg 1, Wr); (LReg, Wr)] /\ deadlock s).
Proof.
  split.
  - eexists _, _. split; [eapply (l_exec_steps [1; 1; 1; 0; 0; 1; 1; 1]%nat); vm_compute; reflexivity|]. split; [vm_compute; reflexivity|].
    split; [vm_compute; reflexivity|]. apply blocked_stuck; vm_compute; reflexivity.
  - eexists _, _. split; [eapply (l_exec_steps (repeat 0 8)%nat); vm_compute; reflexivity|]. split; [vm_compute; reflexivity|].
    split; [vm_compute; reflexivity|]. apply blocked_stuck; vm_compute; reflexivity.
Qed.

(** Conversely these are the only callbacks that wait for themselves: a thread alone, whose handler makes no call that locks its aggregator, or whose
    initializer makes none that locks the registry, always comes to its end. *)
Fixpoint goes (h : list (lk * mode)) (p : list act) : Prop :=
  match p with
  | [] => True
  | Acq l m :: t => compatible l m h /\ goes ((l, m) :: h) t
  | Rel l m :: t => In (l, m) h /\ goes (remove1 (l, m) h) t
  end.
Definition through (h : list (lk * mode)) (p : list act) : Prop := forall rest, goes h rest -> goes h (p ++ rest).
Lemma through_nil h : through h [].
Proof. intros rest H. exact H. Qed.
Lemma through_sect h l m p : compatible l m h -> through ((l, m) :: h) p -> through h (sect l m p).
Proof.
  intros C T rest G. unfold sect. cbn [app goes]. split; auto. rewrite <- app_assoc. apply T. cbn [app goes remove1]. split; [now left|].
  destruct (held_eq_dec (l, m) (l, m)); [exact G|congruence].
Qed.
Lemma through_app h p q : through h p -> through h q -> through h (p ++ q).
Proof. intros P Q rest G. rewrite <- app_assoc. auto. Qed.
Lemma through_flat {A} h (f : A -> list act) xs : (forall x, In x xs -> through h (f x)) -> through h (flat_map f xs).
Proof.
  induction xs as [|x xs IH]; cbn; intros H; [apply through_nil|]. apply through_app; [apply H; auto|apply IH; auto].
Qed.
Definition clear_of (l : lk) (h : list (lk * mode)) : Prop := forall m, ~ In (l, m) h.
Lemma clear_compatible l m h : clear_of l h -> compatible l m h.
Proof. intros C. destruct m; cbn; [apply C|split; apply C]. Qed.
Lemma clear_cons l k m h : k <> l -> clear_of l h -> clear_of l ((k, m) :: h).
Proof. intros N C n [E|I]; [congruence|exact (C n I)]. Qed.
Lemma through_pool h ps : clear_of LPool h -> through h (pool_acts ps).
Proof. intros C. apply through_flat. intros m _. apply through_sect; [apply clear_compatible, C|apply through_nil]. Qed.
Ltac clr := repeat (apply clear_cons; [congruence|]); auto.
Lemma through_call h c : clear_of LPool h -> (wants_registry c -> clear_of LReg h) -> (forall i, wants_aggregator i c -> clear_of (LAg i) h) -> through h (call_acts c).
Proof.
  intros CP CR CA. destruct c as [|ps|i ps|i ps|i ps|xs|xs]; cbn [call_acts wants_registry wants_aggregator] in *.
  - apply through_sect; [apply clear_compatible; auto|apply through_nil].
  - apply through_sect; [apply clear_compatible; auto|apply through_pool; clr].
  - apply through_sect; [apply clear_compatible; auto|apply through_pool; clr].
  - apply through_sect; [apply clear_compatible; auto|]. apply through_flat. intros [m|] I; cbn [part_acts]; (apply through_sect; [apply clear_compatible; clr|apply through_nil]).
  - apply (through_app h (sect LReg Rd [])); (apply through_sect; [apply clear_compatible; auto|]); [apply through_nil|apply through_pool; clr].
  - specialize (CR I). apply through_sect; [apply clear_compatible; auto|]. apply through_flat. intros [j [a b]] IN. cbn [fst snd].
    assert (CJ : clear_of (LAg j) h) by (apply CA, in_map_iff; exists (j, (a, b)); auto).
    apply through_app; [apply through_sect; [|apply through_nil]; cbn; intros [E|E]; [discriminate|exact (CR _ E)]|].
    apply through_app; (apply through_sect; [apply clear_compatible; clr|apply through_pool; clr]).
  - specialize (CR I). apply through_sect; [apply clear_compatible; auto|]. apply through_flat. intros j IN.
    apply through_sect; [apply clear_compatible; clr|apply through_nil].
Qed.
Lemma goes_steps h p s : goes h p -> lsteps [mk_lthread h p] s -> ~ deadlock s.
Proof.
  intros G S. assert (H : exists h' p', s = [mk_lthread h' p'] /\ goes h' p').
  { remember [mk_lthread h p] as s0 eqn:E0. induction S as [s|s1 s2 s3 S IH ST]; [eauto|]. destruct (IH E0) as (h1 & p1 & -> & G1).
    inversion ST as [a h0 l m q b C E1 E2|a h0 l m q b C E1 E2].
    - destruct a as [|x a]; [|destruct a; discriminate]. cbn in E1. injection E1 as X1 X2 X3. subst h0 p1 b. cbn in G1. exists ((l, m) :: h1), q. cbn. split; [reflexivity|apply G1].
    - destruct a as [|x a]; [|destruct a; discriminate]. cbn in E1. injection E1 as X1 X2 X3. subst h0 p1 b. cbn in G1. exists (remove1 (l, m) h1), q. cbn. split; [reflexivity|apply G1]. }
  destruct H as (h' & p' & -> & G'). intros [N D]. destruct p' as [|[l m|l m] p'].
  - apply N. repeat constructor.
  - eapply D. apply (ls_acq [] h' l m p' []). cbn. rewrite app_nil_r. apply G'.
  - eapply D. apply (ls_rel [] h' l m p' []). apply G'.
Qed.
Theorem C59_alone : forall cs s,
  (forall i, (forall c, In c cs -> ~ wants_aggregator i c) -> lsteps [mk_lthread [] (callback_acts i cs)] s -> ~ deadlock s) /\
  ((forall c, In c cs -> ~ wants_registry c) -> lsteps [mk_lthread [] (initializer_acts cs)] s -> ~ deadlock s).
Proof.
  intros cs s. split.
  - intros i W. apply goes_steps. rewrite <- (app_nil_r (callback_acts i cs)). apply through_sect; [apply clear_compatible; intros m []| |exact I].
    apply through_flat. intros c IN. apply through_call; [clr; intros m []|intros _; clr; intros m []|].
    intros j Wj. apply clear_cons; [|intros m []]. intros E. injection E as ->. exact (W c IN Wj).
  - intros W. apply goes_steps. rewrite <- (app_nil_r (initializer_acts cs)). apply through_sect; [apply clear_compatible; intros m []| |exact I].
    apply through_flat. intros c IN. apply through_call; [clr; intros m []|intros X; destruct (W c IN X)|intros j _; clr; intros m []].
Qed.
Print Assumptions C59_alone.
Example C59_alone_witness : (forall c, In c [KPush 1 [PName]; KEnable [1; 2]; KPopAll [(2, ([Rd], []))]; KWrite [Wr]] -> ~ wants_aggregator 0 c)%nat /\
  (forall c, In c [KAg 0 [Wr]; KPush 1 [PPool Rd]] -> ~ wants_registry c)%nat.
Proof. split; intros c I; repeat (destruct I as [<-|I]; [cbn; intuition discriminate|]); contradiction. Qed.
