(** The theorems about the shared registry. *)
From Coq Require Import ZArith List Bool Lia Arith Ascii Permutation.
From Verif Require Import Base ModelTypes ModelReducer SpecReducer ModelSeparator SpecSeparator ModelAggregator SpecAggregator
  ModelRegistry SpecRegistry RegProofs RegFinal AggRun AggFinal ModelConc SpecConc ConcProofs ConcInv ConcLin ConcNames.
Import ListNotations.
Local Open Scope Z_scope.

Section Final.
  Variable ne : nat -> list Z -> list Z.

  (** * Calls on objects come from the schedule *)
  Section Ops.
  Variable P : gop -> Prop.
  Definition pcP (p : pc) : Prop :=
    match p with
    | PGot _ _ g => P g
    | PCreated _ d c1 c2 => P (GoAdd (SmRed d) c1 c2)
    | PLocked _ x c1 c2 _ => forall h, P (GoPush x h c1 c2)
    | PPop f _ _ _ | PPopped f _ _ _ _ _ => f = true -> P GoForcePop
    | _ => True
    end.
  Hypothesis PS : forall f c, P (GoSeparate 0 false f c).
  Hypothesis PP : P GoPop.
  Hypothesis PE : forall v, P (GoEnable v).
  Definition objP (ev : list event) : Prop := Forall (fun e => match e with EObj _ _ g _ => P g | _ => True end) ev.
  Lemma ops_step t c k p ev r' d' p' : kopP P k -> pcP p -> Kstep ne t c k p ev r' d' p' -> objP ev /\ pcP p'.
  Proof.
    intros K Q S. unfold objP.
    assert (L : forall reg s g o a r, P g -> Forall (fun e => match e with EObj _ _ g _ => P g | _ => True end) (lin reg t s g o a r)).
    { intros. unfold lin. constructor; auto. constructor; auto. destruct reg; exact I. }
    destruct S; subst; simpl in *; (split; [|auto]); repeat (apply Forall_app; split); try (apply L; auto); repeat constructor; auto;
      try (destruct dest; exact K); try apply K.
    all: try match goal with x := _ : gop |- _ => subst x end.
    all: auto.
    all: try match goal with |- P (if ?f then _ else _) => destruct f; auto end.
    all: try (destruct (out_ptr o); repeat constructor).
    all: try match goal with |- match (if ?r then _ else _) with _ => _ end => destruct r; exact I end.
  Qed.
  Lemma ops_run o n sched evs c : Forall (fun q => kopP P (snd q)) sched -> k_run ne (k_new o n) sched = Ok (evs, c) -> objP evs.
  Proof.
    assert (GEN : forall sched c evs c', (forall t p, nth_error (k_thr c) t = Some p -> pcP p) -> Forall (fun q => kopP P (snd q)) sched ->
      k_run ne c sched = Ok (evs, c') -> objP evs).
    { induction sched0 as [|[t k] sched0 IH]; intros c0 evs0 c1 V F E; cbn [k_run] in E; [injection E as <- <-; constructor|].
      bind_in E x. destruct x as [ev c2]. bind_in E y. destruct y as [evs2 c3]. injection E as <- <-. inversion F; subst.
      destruct (step_Kstep _ _ _ _ _ _ Ex) as [(_ & -> & ->)|(p & p' & ET & S & TH)]; [simpl; eauto|].
      destruct (ops_step _ _ _ _ _ _ _ _ H1 (V _ _ ET) S) as (A & B). apply Forall_app. split; [exact A|]. apply (IH c2 evs2 c3); auto.
      intros t' q Q. rewrite TH in Q. destruct (Nat.eq_dec t t') as [<-|N].
      - rewrite set_nth_same in Q by (now apply nth_error_lt in ET). now injection Q as <-.
      - rewrite set_nth_other in Q by auto. eauto. }
    intros F E. eapply GEN; eauto. intros t p H. simpl in H. apply nth_error_In, repeat_spec in H. subst. exact I.
  Qed.
  Definition bornP (ev : list event) : Prop := Forall (fun e => match e with ELin _ (ADo (RgCreate e _ _)) _ => cenvP P e | _ => True end) ev.
  Lemma born_step t c k p ev r' d' p' : kopP P k -> Kstep ne t c k p ev r' d' p' -> bornP ev.
  Proof.
    intros K S. unfold bornP.
    assert (L : forall reg s g o a r, match a with ADo (RgCreate _ _ _) => False | _ => True end ->
      Forall (fun e => match e with ELin _ (ADo (RgCreate e _ _)) _ => cenvP P e | _ => True end) (lin reg t s g o a r)).
    { intros reg s g o a r A. unfold lin. constructor; auto. constructor; auto. destruct a as [[]| | |], reg; simpl; auto; contradiction. }
    destruct S; subst; simpl in *; repeat (apply Forall_app; split); try (apply L; exact I); try (apply L; unfold push_act; destruct (cleared _ _); exact I); repeat constructor; auto; try apply K.
    all: try (destruct op; auto; fail).
    all: try (destruct reg; exact I).
    all: destruct (out_ptr o); repeat constructor; destruct reg; exact I.
  Qed.
  Lemma born_run o n sched evs c : Forall (fun q => kopP P (snd q)) sched -> k_run ne (k_new o n) sched = Ok (evs, c) -> bornP evs.
  Proof.
    intros F. generalize (k_new o n). revert evs c. induction F as [|[t k] sched H F IH]; intros evs c c0 E; cbn [k_run] in E; [injection E as <- <-; constructor|].
    bind_in E x. destruct x as [ev c2]. bind_in E y. destruct y as [evs2 c3]. injection E as <- <-. apply Forall_app. split; [|eapply IH; eauto].
    destruct (step_Kstep _ _ _ _ _ _ Ex) as [(_ & -> & _)|(p & p' & ET & S & TH)]; [constructor|]. eapply born_step; eauto.
  Qed.
  Lemma objP_calls s evs : objP evs -> Forall P (map fst (calls s evs)).
  Proof.
    induction 1 as [|e evs H _ IH]; [constructor|]. destruct e; simpl; auto. destruct (s0 =? s)%nat; simpl; auto.
  Qed.
  End Ops.

  Lemma no_del_run o n sched evs c : Forall (fun q => k_no_del (snd q)) sched -> k_run ne (k_new o n) sched = Ok (evs, c) -> existsb is_del evs = false.
  Proof.
    intros F. generalize (k_new o n). revert evs c. induction F as [|[t k] sched H F IH]; intros evs c c0 E; cbn [k_run] in E; [injection E as <- <-; auto|].
    bind_in E x. destruct x as [ev c2]. bind_in E y. destruct y as [evs2 c3]. injection E as <- <-. rewrite existsb_app, (IH _ _ _ Ey), orb_false_r. simpl in H.
    destruct (step_Kstep _ _ _ _ _ _ Ex) as [(_ & -> & _)|(p & p' & ET & S & TH)]; auto.
    revert S. generalize (k_reg c2) (k_dead c2). intros r' d' S.
    destruct S; subst; simpl in *; try contradiction; auto; try (destruct reg; reflexivity).
    - destruct op; simpl in *; auto; contradiction.
    - unfold push_act. destruct (cleared _ _), reg; reflexivity.
    - unfold push_act. destruct (cleared _ _), reg; reflexivity.
    - unfold push_act. destruct (cleared _ _), reg; reflexivity.
    - destruct reg, (out_ptr o0); reflexivity.
  Qed.

  Lemma no_late o n sched evs c : Forall (fun q => k_no_del (snd q)) sched ->
    k_run ne (k_new o n) sched = Ok (evs, c) -> forall t a x, ~ In (ELate t a x) evs.
  Proof.
    intros F2 E t a x IN. pose proof (run_Good ne o n sched evs c E) as G. pose proof (no_del_run _ _ _ _ _ F2 E) as ND.
    apply in_split in IN. destruct IN as (pre & post & EQ). destruct (go_lates _ _ _ _ _ G _ _ _ _ _ EQ) as (pre1 & k & mid & E1 & _ & D).
    assert (X : existsb is_del pre = true).
    { rewrite E1, existsb_app. simpl. destruct a as [[]| | |]; try contradiction; [rewrite D; apply orb_true_r| |];
      (destruct D as [->|(-> & _)]; [apply orb_true_r|reflexivity]). }
    rewrite EQ, existsb_app, X in ND. discriminate.
  Qed.

  Lemma no_clear_kopP k : k_no_clear k -> kopP gnot_clear k.
  Proof. destruct k as [[]|]; simpl; unfold cenvP; simpl; auto. Qed.

  Lemma kopP_and (P Q : gop -> Prop) k : kopP P k -> kopP Q k -> kopP (fun op => P op /\ Q op) k.
  Proof. destruct k as [[]|]; simpl; unfold cenvP; intuition. Qed.

  (** The history of an object: its creation, then the calls made on it; all are as the schedule's calls are. *)
  Lemma obj_ops (P : gop -> Prop) o threads sched evs c s g :
    (forall f c, P (GoSeparate 0 false f c)) -> P GoPop -> (forall v, P (GoEnable v)) ->
    Forall (fun q => kopP P (snd q)) sched ->
    k_run ne (k_new o threads) sched = Ok (evs, c) -> exists_obj c s g ->
    exists e now g0 pre pouts, created_in e now evs /\ agg_new (rgo_agg o) (ce_clock e) (ce_rnd e) now = Ok g0 /\ creation e pre /\
      g_run ne g0 (pre ++ map fst (calls s evs)) = Ok (pouts ++ map snd (calls s evs), g) /\ Forall P (pre ++ map fst (calls s evs)).
  Proof.
    intros P1 P2 P4 F2 E EX. pose proof (run_Good ne o threads sched evs c E) as G.
    destruct (hi_obj _ _ _ _ (go_hist _ _ _ _ _ G) _ _ EX) as (e & now & g0 & pre & pouts & Z & A & B & C).
    exists e, now, g0, pre, pouts. split; auto. split; auto. split; auto. split; auto.
    assert (OP : objP P evs) by (eapply ops_run; eauto).
    apply Forall_app. split; [|apply objP_calls; auto].
    destruct B as [->|[->|(rd & EI & ->)]]; repeat constructor; auto.
    destruct Z as (t & n & x & IN). apply (proj1 (Forall_forall _ _) (born_run P _ _ _ _ _ F2 E)) in IN. apply IN. auto.
  Qed.

  Lemma conc_conservation (NE : nth_element_ok ne) o threads sched evs c s g p :
    Forall (fun q => k_no_clear (snd q)) sched -> Forall (fun q => kopP gop_typed (snd q)) sched -> 0 < so_step (ao_sep (rgo_agg o)) ->
    k_run ne (k_new o threads) sched = Ok (evs, c) -> exists_obj c s g -> g_current ne g = Ok p ->
    exists e now g0 pre pouts, created_in e now evs /\ agg_new (rgo_agg o) (ce_clock e) (ce_rnd e) now = Ok g0 /\ creation e pre /\
      let ops := pre ++ map fst (calls s evs) in
      let outs := pouts ++ map snd (calls s evs) in
      g_run ne g0 ops = Ok (outs, g) /\
      let acc := map snd (recorded (so_step (ao_sep (rgo_agg o))) (so_res (ao_sep (rgo_agg o))) (g_enabled g0) ops (map out_bool outs)) in
      let out := flat_map out_handler outs ++ gpopped ops (map out_ptr outs) ++ g_list g ++ s_list (g_sep g) in
      u64 (sum_count out + match p with Some d => ad_count d | None => 0 end) = u64 (declared acc) /\
      submultiset (flat_map ad_data out) (values acc) /\
      exists groups opn,
        Forall2 (fun q d => reported_as ne (so_red (ao_sep (rgo_agg o))) (fst q) (snd q) d) groups out /\
        Permutation (flat_map snd groups ++ opn) acc.
  Proof.
    intros F1 F2 HS E EX EC. destruct (obj_ops gop_typed o threads sched evs c s g) as (e & now & g0 & pre & pouts & Z & A & B & C & T); simpl; auto.
    destruct (obj_ops gnot_clear o threads sched evs c s g) as (e' & now' & g0' & pre' & pouts' & _ & _ & _ & _ & NC); simpl; auto.
    { eapply Forall_impl; [|exact F1]. intros q. apply no_clear_kopP. }
    exists e, now, g0, pre, pouts. split; auto. split; auto. split; auto. split; auto.
    apply (gcons ne NE (rgo_agg o)); auto.
    - eapply gnew_idle; eauto.
    - apply Forall_app in NC. apply Forall_app. split; [eapply creation_clear; eauto|apply NC].
  Qed.

  Lemma g_run_split l1 : forall g l2 outs g2, g_run ne g (l1 ++ l2) = Ok (outs, g2) ->
    exists o1 g1 o2, outs = o1 ++ o2 /\ g_run ne g l1 = Ok (o1, g1) /\ g_run ne g1 l2 = Ok (o2, g2) /\ length o1 = length l1.
  Proof.
    induction l1 as [|op l1 IH]; intros g l2 outs g2 E; [exists [], g, outs; auto|]. cbn [app g_run] in E. bind_in E x. destruct x as [o g1]. bind_in E y. destruct y as [os g3].
    injection E as <- <-. destruct (IH _ _ _ _ Ey) as (o1 & g1' & o2 & -> & A & B & C). exists (o :: o1), g1', o2. split; auto. split; [cbn [g_run]; rewrite Ex; cbn [bind]; rewrite A; reflexivity|]. split; auto. simpl. auto.
  Qed.
  Lemma g_run_len ops : forall g outs g', g_run ne g ops = Ok (outs, g') -> length outs = length ops.
  Proof.
    induction ops as [|op ops IH]; intros g outs g' E; cbn [g_run] in E; [now injection E as <- _|]. bind_in E x. destruct x as [o g1]. bind_in E y. destruct y as [os g3].
    injection E as <- _. simpl. f_equal. eauto.
  Qed.
  Lemma app_inj_length {A} (a b c d : list A) : length a = length c -> a ++ b = c ++ d -> a = c /\ b = d.
  Proof. revert c. induction a as [|x a IH]; intros [|y c] L E; try discriminate; [auto|]. injection E as <- E. injection L as L. destruct (IH c L E) as (-> & ->). auto. Qed.
  (** After a clear() everything starts again. *)
  (** The history of an aggregator from a clear() on: a run from the state clear() left, which holds nothing. *)
  Lemma clear_split (NE : nth_element_ok ne) o threads sched evs c s g before ts cl x after :
    Forall (fun q => kopP gop_typed (snd q)) sched -> 0 < so_step (ao_sep (rgo_agg o)) ->
    k_run ne (k_new o threads) sched = Ok (evs, c) -> exists_obj c s g ->
    calls s evs = before ++ (GoClear ts cl, x) :: after ->
    exists e now g0 pre pouts g1, created_in e now evs /\ agg_new (rgo_agg o) (ce_clock e) (ce_rnd e) now = Ok g0 /\ creation e pre /\
      g_run ne g0 (pre ++ map fst (before ++ [(GoClear ts cl, x)])) = Ok (pouts ++ map snd (before ++ [(GoClear ts cl, x)]), g1) /\
      g_idle ne (rgo_agg o) g1 /\ agg_label g1 = acc_time (so_step (ao_sep (rgo_agg o))) (so_res (ao_sep (rgo_agg o))) cl ts /\
      g_size g1 = 0%nat /\ g_data_size g1 = 0%nat /\
      g_run ne g1 (map fst after) = Ok (map snd after, g) /\ Forall gop_typed (map fst after).
  Proof.
    intros F2 HS E EX CA. destruct (obj_ops gop_typed o threads sched evs c s g) as (e & now & g0 & pre & pouts & Z & A & B & C & T); simpl; auto.
    rewrite CA in C, T. assert (CA' : before ++ (GoClear ts cl, x) :: after = (before ++ [(GoClear ts cl, x)]) ++ after) by now rewrite <- app_assoc.
    rewrite CA', !map_app, !app_assoc in C. rewrite CA', !map_app in T.
    destruct (g_run_split _ _ _ _ _ C) as (o1 & g1 & o2 & EO & R1 & R2 & L1).
    assert (LP : length pouts = length pre).
    { pose proof (g_run_len _ _ _ _ C) as LL. rewrite !app_length, !map_length in LL. simpl in LL. lia. }
    assert (EO2 : o1 = (pouts ++ map snd before) ++ [x] /\ o2 = map snd after).
    { symmetry in EO. rewrite <- !app_assoc in EO. simpl map in EO. rewrite !app_length, !map_length in L1. 
      assert (X : o1 ++ o2 = ((pouts ++ map snd before) ++ [x]) ++ map snd after) by (rewrite EO, <- !app_assoc; reflexivity).
      apply app_inj_length; auto. rewrite L1, !app_length, map_length. simpl. lia. }
    destruct EO2 as (-> & ->).
    exists e, now, g0, pre, pouts, g1. split; auto. split; auto. split; auto.
    split; [rewrite !map_app; simpl; rewrite !app_assoc; exact R1|].
    apply Forall_app in T. destruct T as (T1 & T). apply Forall_app in T. destruct T as (T2 & T3). apply Forall_app in T2. destruct T2 as (T2 & _).
    simpl in R1. destruct (g_run_split _ _ _ _ _ R1) as (o3 & g2 & o4 & EO3 & R3 & R4 & _).
    cbn [g_run] in R4. bind_in R4 y. destruct y as [y1 y2]. injection R4 as <- ->. simpl in Ey. bind_in Ey z. injection Ey as _ ->.
    destruct (clear_idle ne NE (rgo_agg o) _ _ _ g0 (pre ++ map fst before) o3 g2 cl ts g1 HS A) as (ID & LB & _ & S1 & S2); auto; [apply Forall_app; auto|].
    split; auto.
  Qed.

  Lemma since_clear (NE : nth_element_ok ne) o threads sched evs c s g p before ts cl x after :
    Forall (fun q => kopP gop_typed (snd q)) sched -> 0 < so_step (ao_sep (rgo_agg o)) ->
    k_run ne (k_new o threads) sched = Ok (evs, c) -> exists_obj c s g -> g_current ne g = Ok p ->
    calls s evs = before ++ (GoClear ts cl, x) :: after -> Forall gnot_clear (map fst after) ->
    exists e now g0 pre pouts g1, created_in e now evs /\ agg_new (rgo_agg o) (ce_clock e) (ce_rnd e) now = Ok g0 /\ creation e pre /\
      g_run ne g0 (pre ++ map fst (before ++ [(GoClear ts cl, x)])) = Ok (pouts ++ map snd (before ++ [(GoClear ts cl, x)]), g1) /\
      g_size g1 = 0%nat /\ g_data_size g1 = 0%nat /\
      let ops := map fst after in
      let outs := map snd after in
      g_run ne g1 ops = Ok (outs, g) /\
      let acc := map snd (recorded (so_step (ao_sep (rgo_agg o))) (so_res (ao_sep (rgo_agg o))) (g_enabled g1) ops (map out_bool outs)) in
      let out := flat_map out_handler outs ++ gpopped ops (map out_ptr outs) ++ g_list g ++ s_list (g_sep g) in
      u64 (sum_count out + match p with Some d => ad_count d | None => 0 end) = u64 (declared acc) /\
      submultiset (flat_map ad_data out) (values acc) /\
      exists groups opn,
        Forall2 (fun q d => reported_as ne (so_red (ao_sep (rgo_agg o))) (fst q) (snd q) d) groups out /\
        Permutation (flat_map snd groups ++ opn) acc.
  Proof.
    intros F2 HS E EX EC CA NC. destruct (clear_split NE o threads sched evs c s g before ts cl x after) as (e & now & g0 & pre & pouts & g1 & Z & A & B & C & ID & _ & S1 & S2 & R2 & T); auto.
    exists e, now, g0, pre, pouts, g1. split; auto. split; auto. split; auto. split; auto. split; auto. split; auto. split; auto. apply (gcons ne NE (rgo_agg o)); auto.
  Qed.

  Lemma pop_all_covers o threads sched evs c : k_run ne (k_new o threads) sched = Ok (evs, c) ->
    fits o (length (effects evs)) -> forall pre t f clk body x post,
    evs = pre ++ EInv t (KOp (RgPopAll f clk)) :: body ++ ERet t x :: post -> quiet t body ->
    exists r0, a_run ne (rg_new o) (map fst (effects pre)) = Ok (map snd (effects pre), r0) /\ NoDup (visited t body) /\
      forall id, In id (visited t body) <-> exists n s g, registered r0 n id s g.
  Proof.
    intros E FI pre t f clk body x post EQ Q. destruct (cover_run ne o threads sched evs c E _ _ _ _ _ _ EQ Q) as (r0 & R & D). simpl in D.
    exists r0. split; auto. rewrite D.
    assert (L : (length (effects pre) <= length (effects evs))%nat) by (rewrite EQ, effects_app, app_length; lia).
    assert (F0 : fits o (0 + length (map fst (effects pre)))) by (eapply fits_le; [|exact FI]; rewrite map_length; lia).
    destruct (a_run_inv ne o _ 0 _ _ _ F0 (RInv_new o) R) as (k & K & I & _). rewrite map_length in K.
    apply (ids_registered o (length (effects evs)) k r0 FI I). simpl in K. lia.
  Qed.
  Lemma enable_covers o threads sched evs c : k_run ne (k_new o threads) sched = Ok (evs, c) ->
    fits o (length (effects evs)) -> forall pre t v body x post,
    evs = pre ++ EInv t (KOp (RgEnable v)) :: body ++ ERet t x :: post -> quiet t body ->
    exists r0, a_run ne (rg_new o) (map fst (effects pre)) = Ok (map snd (effects pre), r0) /\ NoDup (switched t body) /\
      forall s, In s (switched t body) <-> exists n id g, registered r0 n id s g.
  Proof.
    intros E FI pre t v body x post EQ Q. destruct (cover_run ne o threads sched evs c E _ _ _ _ _ _ EQ Q) as (r0 & R & D). simpl in D.
    exists r0. split; auto. rewrite D.
    assert (L : (length (effects pre) <= length (effects evs))%nat) by (rewrite EQ, effects_app, app_length; lia).
    assert (F0 : fits o (0 + length (map fst (effects pre)))) by (eapply fits_le; [|exact FI]; rewrite map_length; lia).
    destruct (a_run_inv ne o _ 0 _ _ _ F0 (RInv_new o) R) as (k & K & I & _). rewrite map_length in K.
    apply (objs_registered o (length (effects evs)) k r0 FI I). simpl in K. lia.
  Qed.

  (** A thread inside a call holds an object that exists. *)
  Lemma no_dangling o threads sched evs c t p s : k_run ne (k_new o threads) sched = Ok (evs, c) ->
    nth_error (k_thr c) t = Some p -> holds s p = true -> exists g, exists_obj c s g.
  Proof.
    intros E ET H. pose proof (run_Good ne o threads sched evs c E) as G. pose proof (ki_thr _ (go_inv _ _ _ _ _ G) _ _ ET) as PO.
    destruct p; simpl in *; try discriminate; try contradiction; apply Nat.eqb_eq in H; subst.
    - apply PO.
    - apply PO.
    - apply PO.
    - apply PO.
    - destruct PO as ((pos & g & A) & _). exists g. left. exists pos. exact A.
  Qed.

  Lemma find_obj_app s d g r : ~ In s (objects d) ->
    find_obj s (d ++ Some (s, g) :: r) = Some (length d, g).
  Proof.
    induction d as [|[[s0 g0]|] d IH]; simpl; intros H; [now rewrite Nat.eqb_refl| |].
    - destruct (Nat.eqb_spec s s0); [subst; tauto|]. destruct (Nat.eqb_spec s0 s); [subst; tauto|]. rewrite IH by tauto. reflexivity.
    - rewrite IH by auto. reflexivity.
  Qed.
  Lemma set_nth_app {A} (d : list A) x y r : set_nth (length d) x (d ++ y :: r) = d ++ x :: r.
  Proof. induction d; simpl; congruence. Qed.
  Lemma enable_loop v : forall rest d r, rg_arr r = d ++ rest -> NoDup (objects (rg_arr r)) ->
    exists outs, a_run ne r (map (fun s => AEnableOne s v) (objects rest)) =
      Ok (outs, mk_registry (rg_opt r) (d ++ map (option_map (fun ob : obj => (fst ob, g_enable v (snd ob)))) rest) (rg_dict r) (rg_enabled r) (rg_initializer r) (rg_next r)).
  Proof.
    induction rest as [|[[s g]|] rest IH]; intros d r E ND.
    - exists []. simpl. rewrite app_nil_r in *. destruct r; simpl in *; subst; auto.
    - cbn [objects flat_map map app a_run a_do]. fold (objects rest). assert (NI : ~ In s (objects d)).
      { unfold objects in ND. rewrite E, flat_map_app in ND. simpl in ND. apply NoDup_remove_2 in ND. rewrite in_app_iff in ND. tauto. }
      assert (X : find_obj s (rg_arr r) = Some (length d, g)) by (rewrite E; apply find_obj_app; exact NI). rewrite X. cbn [bind].
      destruct (IH (d ++ [Some (s, g_enable v g)]) (rg_set (length d) (Some (s, g_enable v g)) r)) as (outs & EQ).
      + simpl. rewrite E, set_nth_app, <- app_assoc. reflexivity.
      + unfold objects in *. simpl. rewrite E, set_nth_app. rewrite E in ND. rewrite flat_map_app in *. exact ND.
      + rewrite EQ. eexists. cbn [bind]. rewrite <- app_assoc. reflexivity.
    - destruct (IH (d ++ [None]) r) as (outs & EQ); auto.
      + rewrite <- app_assoc. auto.
      + exists outs. simpl. rewrite EQ, <- app_assoc. reflexivity.
  Qed.
  Lemma objects_nodup r : ROk r -> NoDup (objects (rg_arr r)).
  Proof.
    intros R. pose proof (ro_uniq _ R) as U. unfold at_pos in *. revert U. generalize (rg_arr r). clear R.
    induction l as [|[[s g]|] l IH]; intros U; simpl; [constructor| |].
    - constructor.
      + intros IN. apply in_flat_map in IN. destruct IN as ([[s' g']|] & A & B); [|contradiction]. destruct B as [->|[]]. apply In_nth_error in A. destruct A as (n & A).
        specialize (U 0%nat (S n) s g g' eq_refl A). discriminate.
      + apply IH. intros p1 p2 x g1 g2 A B. specialize (U (S p1) (S p2) x g1 g2 A B). lia.
    - apply IH. intros p1 p2 x g1 g2 A B. specialize (U (S p1) (S p2) x g1 g2 A B). lia.
  Qed.
  Lemma enable_parts o threads sched evs c v : k_run ne (k_new o threads) sched = Ok (evs, c) ->
    exists outs, a_run ne (k_reg c) (AFlag v :: map (fun s => AEnableOne s v) (objects (rg_arr (k_reg c)))) = Ok (outs, rg_enable v (k_reg c)).
  Proof.
    intros E. pose proof (run_Good ne o threads sched evs c E) as G.
    destruct (enable_loop v (rg_arr (k_reg c)) [] (set_flag v (k_reg c)) eq_refl) as (outs & EQ).
    - apply (objects_nodup (k_reg c)). apply G.
    - exists (RUnit :: outs). cbn [a_run a_do bind]. rewrite EQ. reflexivity.
  Qed.
End Final.
