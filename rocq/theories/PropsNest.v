(** Handlers that use other aggregators (C59) or other shards (C78) in a fixed order. *)
From Coq Require Import List Bool Arith Lia.
From Verif Require Import ModelLocks PropsLocks ModelShards ModelNest.
Import ListNotations.

(** [rank] is the order agreed on: a handler running inside a call on aggregator i uses only aggregators of higher rank. *)
Fixpoint climbs (rank : nat -> nat) (lo : nat) (c : ncall) : bool :=
  match c with
  | NPool _ | NRead => true
  | NAg _ i body => (lo <=? rank i) && forallb (climbs rank (S (rank i))) body
  end.
Fixpoint sh_climbs (rank : nat -> nat) (lo : nat) (c : shcall) : bool :=
  match c with ShCall i inner => (lo <=? rank i) && forallb (sh_climbs rank (S (rank i))) inner end.

(* ---- proof ---- *)
Section Order.
  Variable rank : nat -> nat.
  Definition below (r : nat) (h : list (lk * mode)) : Prop := forall j m, In (LAg j, m) h -> rank j < r.
  Definition ordered (h : list (lk * mode)) (l : lk) (m : mode) : Prop :=
    existsb is_pool h = false /\
    match l, m with
    | LPool, _ => True
    | LReg, Rd => existsb is_rw h = false
    | LReg, Wr => h = []
    | LAg i, _ => existsb is_rw h = false /\ below (rank i) h
    end.
  Fixpoint owf (h : list (lk * mode)) (p : list act) : Prop :=
    match p with
    | [] => h = []
    | Acq l m :: p => ordered h l m /\ owf ((l, m) :: h) p
    | Rel l m :: p => match h with [] => False | x :: h => x = (l, m) /\ owf h p end
    end.
  Definition towf (t : lthread) : Prop := owf (l_held t) (l_prog t).

  Lemma lstep_owf ts ts' : Forall towf ts -> lstep ts ts' -> Forall towf ts'.
  Proof.
    intros H S. destruct S as [a h l m p b C|a h l m p b I]; apply Forall_app in H; destruct H as [Ha Hb]; inversion Hb as [|? ? Ht Hr]; subst; apply Forall_app; split; auto; constructor; auto.
    - apply Ht.
    - unfold towf in *. cbn in *. destruct h as [|x h]; [contradiction|]. destruct Ht as [-> Ht]. rewrite remove1_head. exact Ht.
  Qed.
  Lemma lsteps_owf s s' : Forall towf s -> lsteps s s' -> Forall towf s'.
  Proof. intros W S. induction S; [exact W|]. eapply lstep_owf; [|eassumption]. auto. Qed.
  Lemma ogo ts t : Forall towf ts -> In t ts ->
    match l_prog t with [] => False | Rel _ _ :: _ => True | Acq l m :: _ => compatible l m (all_held ts) end -> exists ts', lstep ts ts'.
  Proof.
    intros W I H. pose proof (proj1 (Forall_forall _ _) W t I) as Wt. destruct (in_split _ _ I) as (a & b & ->). destruct t as [h [|[l m|l m] p]]; cbn in H; [contradiction| |].
    - eexists. apply ls_acq. exact H.
    - eexists. apply ls_rel. unfold towf in Wt. cbn in Wt. destruct h as [|x h]; [contradiction|]. destruct Wt as [-> _]. left. reflexivity.
  Qed.
  Lemma oholder ts x : Forall towf ts -> In x (all_held ts) -> exists t, In t ts /\ In x (l_held t) /\
    match l_prog t with [] => False | Rel _ _ :: _ => True | Acq l m :: _ => ordered (l_held t) l m end.
  Proof.
    intros W H. apply all_held_in in H. destruct H as (t & I & Ix). exists t. split; [exact I|]. split; [exact Ix|].
    pose proof (proj1 (Forall_forall _ _) W t I) as Wt. unfold towf in Wt.
    destruct (l_prog t) as [|[l m|l m] p]; [rewrite Wt in Ix; contradiction|apply Wt|exact Logic.I].
  Qed.
  Lemma some_ex f (h : list (lk * mode)) : existsb f h = true -> exists x, In x h /\ f x = true.
  Proof. intros H. apply existsb_exists in H. exact H. Qed.
  Lemma has f (h : list (lk * mode)) x : In x h -> f x = true -> existsb f h = true.
  Proof. intros A B. apply existsb_exists. eauto. Qed.
  (** the aggregator of highest rank that is held *)
  Lemma highest (h : list (lk * mode)) : existsb is_ag h = true -> exists i m, In (LAg i, m) h /\ forall j k, In (LAg j, k) h -> rank j <= rank i.
  Proof.
    induction h as [|[l m] h IH]; intros H; [discriminate|]. cbn in H. destruct (existsb is_ag h) eqn:E.
    - destruct (IH eq_refl) as (i & k & I & M). destruct l as [| |i2]; try (exists i, k; split; [right; exact I|intros j q [Q|Q]; [discriminate|eauto]]).
      destruct (Nat.le_gt_cases (rank i2) (rank i)).
      + exists i, k. split; [right; exact I|]. intros j q [Q|Q]; [inversion Q; subst; assumption|eauto].
      + exists i2, m. split; [left; reflexivity|]. intros j q [Q|Q]; [inversion Q; subst; lia|]. apply M in Q. lia.
    - destruct l as [| |i]; try discriminate. exists i, m. split; [left; reflexivity|]. intros j q [Q|Q]; [inversion Q; subst; lia|].
      exfalso. apply (none _ _ _ E) in Q. discriminate.
  Qed.

  Lemma oprogress ts : Forall towf ts -> ~ Forall done ts -> exists ts', lstep ts ts'.
  Proof.
    intros W N.
    destruct (existsb is_pool (all_held ts)) eqn:P.
    { destruct (some_ex _ _ P) as (x & Ix & Fx). destruct (oholder _ _ W Ix) as (t & I & F & H). apply (ogo ts t W I).
      destruct (l_prog t) as [|[l m|l m] p]; [contradiction| |exact Logic.I]. destruct H as [H _]. rewrite (has _ _ _ F Fx) in H. discriminate. }
    assert (GP : forall m, compatible LPool m (all_held ts)).
    { assert (X : forall m, ~ In (LPool, m) (all_held ts)) by (intros m I; apply (none _ _ _ P) in I; discriminate). intros []; cbn; auto. }
    destruct (existsb is_rw (all_held ts)) eqn:R.
    { destruct (some_ex _ _ R) as (x & Ix & Fx). destruct (oholder _ _ W Ix) as (t & I & F & H). pose proof (has _ _ _ F Fx) as HF.
      apply (ogo ts t W I). destruct (l_prog t) as [|[[| |i] m|l m] p]; [contradiction| |apply GP| |exact Logic.I].
      - destruct m; destruct H as [_ H]; [congruence|rewrite H in F; contradiction].
      - destruct H as (_ & H & _). congruence. }
    assert (GR : compatible LReg Rd (all_held ts)) by (cbn; intros X; apply (none _ _ _ R) in X; discriminate).
    destruct (existsb is_ag (all_held ts)) eqn:A.
    { destruct (highest _ A) as (i & k & Ii & M). destruct (oholder _ _ W Ii) as (t & I & F & H).
      apply (ogo ts t W I). destruct (l_prog t) as [|[[| |j] m|l m] p]; [contradiction| |apply GP| |exact Logic.I].
      - destruct m; [exact GR|]. destruct H as [_ H]. rewrite H in F. contradiction.
      - destruct H as (_ & _ & H). apply H in F. assert (X : forall q, ~ In (LAg j, q) (all_held ts)) by (intros q X; apply M in X; lia).
        destruct m; cbn; auto. }
    assert (Q : forall u, In u ts -> match l_prog u with [] => False | Acq LReg Wr :: _ => False | _ => True end -> exists ts', lstep ts ts').
    { intros u Iu Hu. apply (ogo ts u W Iu). destruct (l_prog u) as [|[[| |i] m|l m] p]; [contradiction| |apply GP| |exact Logic.I].
      - destruct m; [exact GR|contradiction].
      - assert (X : forall k, ~ In (LAg i, k) (all_held ts)) by (intros k X; apply (none _ _ _ A) in X; discriminate). destruct m; cbn; auto. }
    destruct (existsb (fun x => match x with (LReg, Rd) => true | _ => false end) (all_held ts)) eqn:RR.
    { destruct (some_ex _ _ RR) as (x & Ix & Fx). destruct (oholder _ _ W Ix) as (u & Iu & Fu & Hu). apply (Q u Iu).
      destruct (l_prog u) as [|[[| |i] [] |l m] p]; try exact Logic.I; try contradiction.
      destruct Hu as (_ & Hu). rewrite Hu in Fu. contradiction. }
    assert (Ex : exists t, In t ts /\ ~ done t).
    { clear - N. induction ts as [|t ts IH]; [contradiction N; constructor|]. unfold done at 1 in N. destruct (l_prog t) eqn:E.
      - destruct IH as (u & I & D); [intros X; apply N; constructor; assumption|]. exists u. split; [right; exact I|exact D].
      - exists t. split; [left; reflexivity|]. unfold done. rewrite E. discriminate. }
    destruct Ex as (t & I & D). unfold done in D.
    apply (ogo ts t W I). destruct (l_prog t) as [|[[| |i] m|l m] p]; [congruence| |apply GP| |exact Logic.I].
    - assert (Y : ~ In (LReg, Rd) (all_held ts)) by (intros Y; apply (none _ _ _ RR) in Y; discriminate). destruct m; [exact GR|]. split; [exact GR|exact Y].
    - assert (X : forall k, ~ In (LAg i, k) (all_held ts)) by (intros k X; apply (none _ _ _ A) in X; discriminate). destruct m; cbn; auto.
  Qed.

  Lemma owf_sect h l m body q : ordered h l m -> (forall q, owf ((l, m) :: h) q -> owf ((l, m) :: h) (body ++ q)) -> owf h q -> owf h (sect l m body ++ q).
  Proof. intros A B H. unfold sect. cbn. split; [exact A|]. rewrite <- app_assoc. apply B. cbn. auto. Qed.
  Lemma owf_flat {A} h (f : A -> list act) l q : (forall x q, In x l -> owf h q -> owf h (f x ++ q)) -> owf h q -> owf h (flat_map f l ++ q).
  Proof. intros F H. induction l as [|x l IH]; cbn; [exact H|]. rewrite <- app_assoc. apply F; [left; reflexivity|]. apply IH. intros y r I. apply F. right. exact I. Qed.
  (** an ordinary program without enable() keeps this order as well *)
  Lemma wf_owf p : forall h, wf false h p -> owf h p.
  Proof.
    induction p as [|[l m|l m] p IH]; intros h H; cbn [wf owf] in *; [exact H| |].
    - destruct H as [A H]. split; [|auto]. destruct A as [P A]. split; [exact P|]. destruct l as [| |i]; [destruct m; [apply A|exact A]|exact Logic.I|].
      destruct A as [A B]. split; [apply B; reflexivity|]. intros j k I. apply (none _ _ _ A) in I. discriminate.
    - destruct h as [|x h]; [contradiction|]. destruct H as [E H]. auto.
  Qed.
  (** nested calls keep it *)
  Fixpoint ncall_ind' (P : ncall -> Prop) (HP : forall m, P (NPool m)) (HR : P NRead) (HA : forall b i body, Forall P body -> P (NAg b i body)) (c : ncall) : P c :=
    match c with
    | NPool m => HP m
    | NRead => HR
    | NAg b i body => HA b i body ((fix all l : Forall P l := match l with [] => Forall_nil _ | x :: t => Forall_cons x (ncall_ind' P HP HR HA x) (all t) end) body)
    end.
  Lemma owf_ncall c : forall lo h q, climbs rank lo c = true -> existsb is_pool h = false -> existsb is_rw h = false -> below lo h ->
    owf h q -> owf h (ncall_acts c ++ q).
  Proof.
    induction c as [m| |b i body IH] using ncall_ind'; intros lo h q C P R B H; cbn [ncall_acts].
    - apply owf_sect; [split; [exact P|exact Logic.I]|auto|exact H].
    - apply owf_sect; [split; [exact P|exact R]|auto|exact H].
    - cbn [climbs] in C. apply andb_true_iff in C. destruct C as [L C]. apply Nat.leb_le in L. rewrite forallb_forall in C. rewrite Forall_forall in IH.
      assert (G : owf h (sect (LAg i) Wr (flat_map ncall_acts body) ++ q)).
      { apply owf_sect; [| |exact H].
        - split; [exact P|]. split; [exact R|]. intros j k I. apply B in I. lia.
        - intros r Hr. apply owf_flat; [|exact Hr]. intros x r2 Ix Hr2. apply (IH x Ix (S (rank i))); auto.
          intros j k [E|I]; [inversion E; subst; lia|apply B in I; lia]. }
      destruct b; [|exact G]. rewrite <- app_assoc. apply owf_sect; [split; [exact P|exact R]|auto|exact G].
  Qed.
End Order.

(** C59 *)
(** What is safe (if nobody calls enable()): handlers that read the registry, and handlers that use other aggregators,
    directly or by id, with handlers that do so again, to any depth, as long as all follow one order of the aggregators.
    Any number of threads making such calls and all other calls: never a deadlock, ... *)
Theorem C59_ordered_handlers_partial : forall rank progs s,
  (forall p c, In p progs -> In (inl c) p -> is_enable c = false) ->
  (forall p c, In p progs -> In (inr c) p -> climbs rank 0 c = true) ->
  lsteps (nstart progs) s -> ~ deadlock s.
Proof.
  intros rank progs s E C S [N D].
  assert (W : Forall (towf rank) (nstart progs)).
  { apply Forall_forall. intros t I. unfold nstart in I. apply in_map_iff in I. destruct I as (p & <- & I). unfold towf. cbn [l_held l_prog].
    rewrite <- (app_nil_r (flat_map top_acts p)). revert E C. 
    assert (G : forall p', (forall x, In x p' -> In x p) -> (forall p c, In p progs -> In (inl c) p -> is_enable c = false) ->
      (forall p c, In p progs -> In (inr c) p -> climbs rank 0 c = true) -> owf rank [] (flat_map top_acts p' ++ [])).
    { intros p' Sub E C. apply owf_flat; [|reflexivity]. intros x q Ix Hq. apply Sub in Ix. destruct x as [c|c]; cbn [top_acts].
      - specialize (E p c I Ix). assert (W0 : wf false [] (call_acts c ++ [])) by (apply wf_call; [exact E|reflexivity]).
        apply wf_owf with (rank := rank) in W0. revert W0. clear - Hq. generalize (call_acts c) as a. intros a.
        assert (G2 : forall h, owf rank h (a ++ []) -> forall q, owf rank [] q -> owf rank h (a ++ q)).
        { induction a as [|[l m|l m] a IH]; intros h H q1 Hq1; cbn [app owf] in *; [subst h; exact Hq1| |].
          - destruct H as [A H]. split; [exact A|auto].
          - destruct h as [|y h]; [contradiction|]. destruct H as [A H]. split; [exact A|auto]. }
        intros W0. apply G2; assumption.
      - eapply owf_ncall with (lo := 0%nat); [apply (C p c I Ix)|reflexivity|reflexivity|intros j k []|exact Hq]. }
    apply G. auto. }
  destruct (oprogress rank s (lsteps_owf rank _ _ W S) N) as [s' H]. exact (D s' H).
Qed.
Print Assumptions C59_ordered_handlers_partial.

(** ... and every call returns: whatever the schedule, an execution has as many steps as the calls have lock operations
    when nobody can go on, and then everything is done. *)
Theorem C59_ordered_return : forall rank progs n s,
  (forall p c, In p progs -> In (inl c) p -> is_enable c = false) ->
  (forall p c, In p progs -> In (inr c) p -> climbs rank 0 c = true) ->
  lrun n (nstart progs) s ->
  (n <= length (flat_map top_acts (concat progs)))%nat /\
  ((forall s', ~ lstep s s') -> Forall done s /\ n = length (flat_map top_acts (concat progs))).
Proof.
  intros rank progs n s E C R.
  assert (L : todo (nstart progs) = length (flat_map top_acts (concat progs))).
  { clear. unfold nstart, todo. rewrite map_map. cbn. induction progs as [|p ps IH]; [reflexivity|]. cbn [concat]. rewrite flat_map_app, app_length, <- IH. reflexivity. }
  pose proof (lrun_todo _ _ _ R) as T. rewrite L in T. split; [lia|]. intros St.
  assert (Z0 : todo s = 0%nat).
  { destruct (todo s) eqn:Q; [reflexivity|]. exfalso. apply (C59_ordered_handlers_partial rank progs s E C (lrun_steps _ _ _ R)). split; [|exact St].
    intros A. assert (X : todo s = 0%nat) by (clear - A; induction A as [|t s D A IH]; [reflexivity|]; unfold todo in *; cbn; unfold done in D; rewrite D; cbn; exact IH). congruence. }
  split; [apply todo_0; exact Z0|lia].
Qed.
Print Assumptions C59_ordered_return.

(** Three threads; a handler of aggregator 0 uses 1 by id, whose handler uses 2 and reads a name, in the order 0, 1, 2. *)
Definition nest_progs : list (list (call + ncall)) :=
  [[inr (NAg false 0 [NPool Wr; NAg true 1 [NAg false 2 [NPool Rd]; NRead]])];
   [inr (NAg true 1 [NAg false 2 []]); inl (KWrite [Wr])]; [inl (KPopAll [(0, ([], [Rd])); (2, ([], []))])]]%nat.
Example C59_ordered_witness : (forall p c, In p nest_progs -> In (inl c) p -> is_enable c = false) /\
  (forall p c, In p nest_progs -> In (inr c) p -> climbs (fun i => i) 0 c = true) /\
  exists s, lsteps (nstart nest_progs) s /\ In (LAg 0, Wr) (all_held s) /\ In (LAg 1, Wr) (all_held s) /\ In (LAg 2, Wr) (all_held s) /\ ~ Forall done s.
Proof.
  split; [|split].
  - intros p c [<-|[<-|[<-|[]]]] I; repeat (destruct I as [I|I]; [inversion I; reflexivity|]); contradiction.
  - intros p c [<-|[<-|[<-|[]]]] I; repeat (destruct I as [I|I]; [inversion I; reflexivity|]); contradiction.
  - eexists. split; [eapply (l_exec_steps [0; 0; 0; 0; 0; 0; 2; 2; 0]%nat); vm_compute; reflexivity|]. repeat split; try (vm_compute; tauto).
    intros F. inversion F. discriminate.
Qed.

(** C78 *)
(** Handlers of a multi_aggregator that use other shards, in one fixed order: never a deadlock. *)
Theorem C78_ordered_handlers_partial : forall rank progs s,
  (forall p c, In p progs -> In c p -> sh_climbs rank 0 c = true) -> lsteps (shstart progs) s -> ~ deadlock s.
Proof.
  intros rank progs s C S.
  set (tr := fix tr (c : shcall) : ncall := match c with ShCall i inner => NAg false i (map tr inner) end).
  assert (IND : forall P : shcall -> Prop, (forall i inner, Forall P inner -> P (ShCall i inner)) -> forall c, P c).
  { intros P H. fix IH 1. intros [i inner]. apply H. induction inner; constructor; auto. }
  assert (T : forall c, ncall_acts (tr c) = shcall_acts c).
  { apply IND. intros i inner H. cbn [tr ncall_acts shcall_acts app]. unfold shard_acts. f_equal. fold tr.
    induction H as [|x l H F IH]; [reflexivity|]. cbn [map flat_map]. rewrite H, IH. reflexivity. }
  assert (K : forall c lo, climbs rank lo (tr c) = sh_climbs rank lo c).
  { apply (IND (fun c => forall lo, climbs rank lo (tr c) = sh_climbs rank lo c)). intros i inner H lo. cbn [tr climbs sh_climbs]. f_equal. fold tr.
    induction H as [|x l H F IH]; [reflexivity|]. cbn [map forallb]. rewrite H, IH. reflexivity. }
  assert (P : shstart progs = nstart (map (map (fun c => inr (tr c))) progs)).
  { unfold shstart, nstart. rewrite map_map. apply map_ext. intros p. f_equal. induction p as [|x p IH]; [reflexivity|]. cbn [flat_map map top_acts]. rewrite T, IH. reflexivity. }
  rewrite P in S. refine (C59_ordered_handlers_partial rank _ s _ _ S).
  - intros p c I Ic. apply in_map_iff in I. destruct I as (q & <- & Iq). apply in_map_iff in Ic. destruct Ic as (x & X & _). discriminate.
  - intros p c I Ic. apply in_map_iff in I. destruct I as (q & <- & Iq). apply in_map_iff in Ic. destruct Ic as (x & X & Ix).
    inversion X; subst. rewrite K. exact (C q x Iq Ix).
Qed.
Print Assumptions C78_ordered_handlers_partial.
Example C78_ordered_witness : exists s,
  lsteps (shstart [[ShCall 0 [ShCall 2 []]; ShCall 1 []]; [ShCall 1 [ShCall 2 []]]]%nat) s /\ In (LAg 0, Wr) (all_held s) /\ In (LAg 1, Wr) (all_held s) /\
  forallb (sh_climbs (fun i => i) 0) [ShCall 0 [ShCall 2 []]; ShCall 1 []; ShCall 1 [ShCall 2 []]] = true.
Proof. eexists. split; [eapply (l_exec_steps [0; 1]%nat); vm_compute; reflexivity|]. repeat split; vm_compute; tauto. Qed.
