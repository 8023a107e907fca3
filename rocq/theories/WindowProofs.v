(** The samples behind every record lie in the record's window: groups with times. *)
From Coq Require Import ZArith List Bool Permutation Lia Arith.
From Verif Require Import Base ModelTypes ModelAvg ModelReducer SpecReducer ModelSeparator SpecSeparator ModelAggregator SpecAggregator
  SepProofs SepSpecProofs SepRun SepSafe AggProofs AggRun AggFinal.
Import ListNotations.
Local Open Scope Z_scope.

Definition tgroup := (Z * list (Z * rop))%type.
Definition untime (q : tgroup) : group := (fst q, map snd (snd q)).
Definition tall (l : list tgroup) : list (Z * rop) := flat_map snd l.
Lemma tall_app a b : tall (a ++ b) = tall a ++ tall b.
Proof. apply flat_map_app. Qed.
Lemma all_untime l : all_ops (map untime l) = map snd (tall l).
Proof. induction l as [|q l IH]; auto. unfold all_ops, tall in *. simpl. now rewrite map_app, IH. Qed.

Section Timed.
  Variables l0 step : Z.
  Variable res : resolution.
  Hypothesis Hs : 0 < step.

  Definition in_window (w : Z) (p : Z * rop) : Prop := window_of l0 step (fst p) = w.
  Definition tg_ok (q : tgroup) : Prop := snd q <> [] /\ Forall (in_window (fst q)) (snd q).
  (** [q]: finished groups queued; [opn]: the open window *)
  Definition TSp (sp : spec) (q : list tgroup) (opn : list (Z * rop)) : Prop :=
    sp_queue sp = map untime q /\ sp_open sp = map snd opn /\ (exists k, sp_cur sp = l0 + k * step) /\
    Forall (in_window (sp_cur sp)) opn /\ Forall tg_ok q.

  Lemma t_advance t h sp q opn : TSp sp q opn ->
    let '(out, sp1) := spec_deliver h (spec_advance step t sp) in
    exists q1 opn1 tout, TSp sp1 q1 opn1 /\ out = map untime tout /\ Forall tg_ok tout /\
      Permutation (tall tout ++ tall q1 ++ opn1) (tall q ++ opn) /\ t < sp_cur sp1 + step.
  Proof.
    intros (E1 & E2 & (k & E3) & F1 & F2). unfold spec_advance. destruct (Z.ltb_spec t (sp_cur sp + step)) as [L|L].
    - assert (D : spec_deliver h ([], sp) = ([], sp)) by (unfold spec_deliver; destruct h; simpl; rewrite ?app_nil_r; destruct sp; auto).
      rewrite D. exists q, opn, []. split; [|auto]. split; auto. split; auto. split; eauto.
    - set (c := match opn with [] => [] | _ => [(sp_cur sp, opn)] end : list tgroup).
      assert (EC : (match sp_open sp with [] => [] | g => [(sp_cur sp, g)] end) = map untime c).
      { rewrite E2. unfold c, untime. destruct opn; reflexivity. }
      assert (KC : exists k', window_of (sp_cur sp) step t = l0 + k' * step).
      { destruct (window_of_congr (sp_cur sp) step t) as [k2 Ek]. exists (k + k2). rewrite Ek, E3. lia. }
      assert (FC : Forall tg_ok c) by (unfold c; destruct opn; constructor; [split; [discriminate|exact F1]|constructor]).
      assert (TC : tall c = opn) by (unfold c; destruct opn; simpl; rewrite ?app_nil_r; auto).
      pose proof (window_of_spec (sp_cur sp) step t Hs) as W.
      rewrite EC. unfold spec_deliver. destruct h; cbn [fst snd sp_cur sp_open sp_queue].
      + exists q, [], c. split; [split; auto|]. split; auto. split; auto. split; [|lia].
        rewrite TC, app_nil_r. apply Permutation_app_comm.
      + exists (q ++ c), [], []. split; [|split; [auto|split; [auto|split; [|lia]]]].
        * split; [cbn [sp_queue]; now rewrite E1, map_app|]. split; auto. split; auto. split; [constructor|]. apply Forall_app. auto.
        * simpl. now rewrite tall_app, TC, app_nil_r.
  Qed.

  Lemma t_put t h op sp q opn so sp1 : TSp sp q opn -> spec_put step t t h op sp = (so, sp1) ->
    exists q1 opn1 tout, TSp sp1 q1 opn1 /\ po_handler so = map untime tout /\ Forall tg_ok tout /\ po_ptr so = None /\
      Permutation (tall tout ++ tall q1 ++ opn1) ((tall q ++ opn) ++ match po_bool so with Some true => [(t, op)] | _ => [] end).
  Proof.
    intros T E. unfold spec_put in E. pose proof (t_advance t h sp q opn T) as A.
    destruct (spec_deliver h (spec_advance step t sp)) as [out sp2]. destruct A as (q1 & opn1 & tout & (A1 & A2 & (k & A3) & A4 & A5) & B & C & P & L).
    destruct (Z.ltb_spec t (sp_cur sp2)) as [L2|L2]; injection E as <- <-; simpl.
    - exists q1, opn1, tout. split; [split; auto; split; auto; split; eauto|]. rewrite app_nil_r. auto.
    - exists q1, (opn1 ++ [(t, op)]), tout. split; [|split; [auto|split; [auto|split; [auto|]]]].
      + split; auto. split; [simpl; rewrite A2, map_app; auto|]. split; [eauto|]. split; auto. apply Forall_app. split; auto. constructor; [|constructor].
        unfold in_window. simpl. rewrite <- (window_of_shift l0 k step t Hs), <- A3. apply window_of_fix; auto.
      + rewrite <- P, <- !app_assoc. reflexivity.
  Qed.

  (** The aggregator also has its own queue. *)
  Definition tstate := (list tgroup * list tgroup * list (Z * rop))%type.
  Definition theld (t : tstate) : list (Z * rop) := tall (fst (fst t)) ++ tall (snd (fst t)) ++ snd t.
  Definition TInv (a : aspec) (t : tstate) : Prop :=
    as_q a = map untime (fst (fst t)) /\ Forall tg_ok (fst (fst t)) /\ TSp (as_sp a) (snd (fst t)) (snd t).
  Definition rec1 (en : bool) (op : gop) (b : option bool) : list (Z * rop) :=
    match op, b with
    | GoAdd x c1 _, Some true | GoPush x _ c1 _, Some true => if en then [(acc_time step res c1 (sm_ts x), sm_op x)] else []
    | _, _ => []
    end.
  Definition pop1 {A} (op : gop) (p : option A) : list A := match op, p with GoPop, Some q | GoForcePop, Some q => [q] | _, _ => [] end.

  Lemma TSp_empty sp q opn : TSp sp q opn -> TSp (mk_spec (sp_cur sp) (sp_open sp) []) [] opn.
  Proof. intros (A & B & C & D & E). split; auto. Qed.

  Lemma t_add x c1 c2 a t so a1 : adv_time step res c1 c2 (sm_ts x) = acc_time step res c1 (sm_ts x) ->
    TInv a t -> aspec_add step res x c1 c2 a = (so, a1) ->
    exists t1, TInv a1 t1 /\ po_handler so = [] /\ po_ptr so = None /\
      Permutation (theld t1) (theld t ++ rec1 (as_en a) (GoAdd x c1 c2) (po_bool so)).
  Proof.
    intros HC (Q & FQ & TS) E. destruct t as [[q sq] opn]. cbn [fst snd] in *. unfold aspec_add in E.
    destruct (as_en a) eqn:EN; simpl negb in E; cbv iota in E.
    2: { injection E as <- <-. exists (q, sq, opn). split; [split; auto|]. simpl. rewrite app_nil_r. auto. }
    cbn [spec_call] in E. rewrite HC in E. destruct (spec_put _ _ _ _ _ _) as [so0 sp1] eqn:EP. injection E as -> <-.
    assert (PH : po_handler so = []).
    { unfold spec_put, spec_deliver in EP. cbn [fst snd] in EP. destruct (_ <? _); injection EP as <- _; auto. }
    destruct (t_put _ _ _ _ _ _ _ _ TS EP) as (sq1 & opn1 & tout & T1 & H1 & _ & H3 & P).
    assert (tout = []) as -> by (rewrite PH in H1; now destruct tout). simpl in P.
    assert (R : rec1 true (GoAdd x c1 c2) (po_bool so) = match po_bool so with Some true => [(acc_time step res c1 (sm_ts x), sm_op x)] | _ => [] end)
      by (unfold rec1; destruct (po_bool so) as [[|]|]; auto).
    unfold theld; cbn [fst snd]. rewrite R. destruct (po_bool so) as [[|]|].
    - exists (q ++ sq1, [], opn1). split; [|split; [auto|split; [auto|]]].
      + split; [cbn [as_drain as_q fst]; destruct T1 as (-> & _); now rewrite Q, map_app|]. split; [apply Forall_app; split; auto; apply T1|]. exact (TSp_empty _ _ _ T1).
      + cbn [fst snd]. rewrite tall_app. simpl. rewrite <- !app_assoc. rewrite <- app_assoc in P. now apply Permutation_app_head.
    - exists (q, sq1, opn1). split; [split; auto|]. split; auto. split; auto. cbn [fst snd]. rewrite app_nil_r in *. now apply Permutation_app_head.
    - exists (q, sq1, opn1). split; [split; auto|]. split; auto. split; auto. cbn [fst snd]. rewrite app_nil_r in *. now apply Permutation_app_head.
  Qed.

  Lemma t_call op a t so a1 : gnot_clear op -> gcoherent step res op -> TInv a t -> aspec_call step res op a = (so, a1) ->
    exists t1 th tp, TInv a1 t1 /\ po_handler so = map untime th /\ Forall tg_ok th /\
      pop1 op (po_ptr so) = map untime tp /\ Forall tg_ok tp /\
      Permutation (tall th ++ tall tp ++ theld t1) (theld t ++ rec1 (as_en a) op (po_bool so)).
  Proof.
    intros HN HC TI E. destruct op; simpl in HN, HC; try contradiction; cbn [aspec_call] in E.
    - destruct (t_add _ _ _ _ _ _ _ HC TI E) as (t1 & T1 & H1 & H2 & P). exists t1, [], []. simpl. rewrite H1. split; auto 10.
    - destruct h; simpl negb in E; cbv iota in E.
      2: { destruct (t_add _ _ _ _ _ _ _ HC TI E) as (t1 & T1 & H1 & H2 & P). exists t1, [], []. simpl. rewrite H1. split; auto 10. }
      destruct t as [[q sq] opn]. destruct TI as (Q & FQ & TS). cbn [fst snd] in *. destruct (as_en a) eqn:EN; simpl negb in E; cbv iota in E.
      2: { injection E as <- <-. exists (q, sq, opn), [], []. split; [split; auto|]. simpl. rewrite app_nil_r. auto 10. }
      cbn [spec_call] in E. rewrite HC in E. destruct (spec_put _ _ _ _ _ _) as [so0 sp1] eqn:EP. injection E as -> <-.
      destruct (t_put _ _ _ _ _ _ _ _ TS EP) as (sq1 & opn1 & tout & T1 & H1 & H2 & H3 & P).
      exists (q, sq1, opn1), tout, []. split; [split; auto|]. split; auto. split; auto. split; auto. split; auto.
      unfold theld; cbn [fst snd]. simpl tall. replace (rec1 true _ _) with (match po_bool so with Some true => [(acc_time step res c1 (sm_ts x), sm_op x)] | _ => [] end)
        by (unfold rec1; destruct (po_bool so) as [[|]|]; auto).
      cbn [app]. rewrite Permutation_app_swap_app. rewrite <- (app_assoc (tall q)). apply Permutation_app_head. exact P.
    - (* separate *) destruct t as [[q sq] opn]. destruct TI as (Q & FQ & TS). cbn [fst snd] in *. cbn [spec_call] in E.
      pose proof (t_advance (acc_time step res c ts) h _ _ _ TS) as A. destruct (spec_deliver _ _) as [out sp1].
      destruct A as (sq1 & opn1 & tout & T1 & -> & FO & P & _). injection E as <- <-.
      exists (q ++ sq1, [], opn1), tout, []. split; [|split; [auto|split; [auto|split; [auto|split; [auto|]]]]].
      + split; [cbn [as_drain as_q fst]; destruct T1 as (-> & _); now rewrite Q, map_app|]. split; [apply Forall_app; split; auto; apply T1|]. exact (TSp_empty _ _ _ T1).
      + unfold theld; cbn [fst snd]. simpl. rewrite app_nil_r, tall_app, <- app_assoc. rewrite Permutation_app_swap_app. now apply Permutation_app_head.
    - (* pop *) destruct t as [[q sq] opn]. destruct TI as (Q & FQ & TS). cbn [fst snd] in *. destruct q as [|g q].
      + simpl in Q. rewrite Q in E. injection E as <- <-. exists ([], sq, opn), [], []. split; [split; auto|]. simpl. rewrite app_nil_r. auto 10.
      + simpl in Q. rewrite Q in E. injection E as <- <-. inversion FQ; subst. exists (q, sq, opn), [], [g]. split; [split; auto|]. split; auto. split; auto. split; auto.
        split; auto. unfold theld; cbn [fst snd]. simpl. rewrite !app_nil_r, <- !app_assoc. auto.
    - (* force_pop *) destruct t as [[q sq] opn]. destruct TI as (Q & FQ & TS). cbn [fst snd] in *. cbn [spec_call] in E.
      destruct TS as (S1 & S2 & S3 & S4 & S5). destruct sq as [|g sq].
      + simpl in S1. rewrite S1 in E. injection E as <- <-.
        exists (q, [], []), [], (match opn with [] => [] | _ => [(sp_cur (as_sp a), opn)] end). split; [|split; [auto|split; [auto|split; [|split]]]].
        * split; [exact Q|]. split; [exact FQ|]. split; [reflexivity|]. split; [reflexivity|]. split; [exact S3|]. split; constructor.
        * simpl. rewrite S2. destruct opn; reflexivity.
        * destruct opn; constructor; [split; [discriminate|exact S4]|constructor].
        * unfold theld; cbn [fst snd]. simpl. rewrite app_nil_r. destruct opn; simpl; rewrite ?app_nil_r; auto. apply (Permutation_app_comm (p :: opn)).
      + simpl in S1. rewrite S1 in E. injection E as <- <-. inversion S5; subst. exists (q, sq, opn), [], [g]. split; [|split; [auto|split; [auto|split; [auto|split; [auto|]]]]].
        * split; [exact Q|]. split; [exact FQ|]. split; [reflexivity|]. split; [exact S2|]. split; [exact S3|]. split; assumption.
        * unfold theld; cbn [fst snd]. simpl. rewrite !app_nil_r. rewrite Permutation_app_swap_app. apply Permutation_app_head. now rewrite <- app_assoc.
    - (* current *) destruct t as [[q sq] opn]. cbn [spec_call] in E. injection E as <- <-. exists (q, sq, opn), [], []. split; [destruct TI as (Q & FQ & TS); split; auto|].
      simpl. rewrite app_nil_r. auto 10.
    - (* enable *) destruct t as [[q sq] opn]. injection E as <- <-. exists (q, sq, opn), [], []. split; [destruct TI as (Q & FQ & TS); split; auto|].
      simpl. rewrite app_nil_r. auto 10.
  Qed.

  Lemma recorded_rec1 en op ops b bs : recorded step res en (op :: ops) (b :: bs) = rec1 en op b ++ recorded step res (en_after op en) ops bs.
  Proof. reflexivity. Qed.
  Lemma gpopped_pop1 {A} op ops (p : option A) ps : gpopped (op :: ops) (p :: ps) = pop1 op p ++ gpopped ops ps.
  Proof. reflexivity. Qed.
  Lemma t_run ops : Forall gnot_clear ops -> Forall (gcoherent step res) ops -> forall a t, TInv a t ->
    let '(os, a1) := aspec_run step res ops a in
    exists t1 th tp, TInv a1 t1 /\ flat_map po_handler os = map untime th /\ Forall tg_ok th /\
      gpopped ops (map po_ptr os) = map untime tp /\ Forall tg_ok tp /\
      Permutation (tall th ++ tall tp ++ theld t1) (theld t ++ recorded step res (as_en a) ops (map po_bool os)).
  Proof.
    induction ops as [|op ops IH]; intros HN HC a t TI.
    - exists t, [], []. simpl. rewrite app_nil_r. split; auto 10.
    - simpl aspec_run. destruct (aspec_call step res op a) as [so a1] eqn:E.
      destruct (t_call op a t so a1 (Forall_inv HN) (Forall_inv HC) TI E) as (t1 & th & tp & T1 & H1 & F1 & H2 & F2 & P).
      specialize (IH (Forall_inv_tail HN) (Forall_inv_tail HC) a1 t1 T1). destruct (aspec_run step res ops a1) as [os a2].
      destruct IH as (t2 & th2 & tp2 & T2 & H3 & F3 & H4 & F4 & P2).
      exists t2, (th ++ th2), (tp ++ tp2). split; auto. split; [simpl; now rewrite H1, H3, map_app|]. split; [apply Forall_app; auto|].
      split; [cbn [map]; rewrite gpopped_pop1; now rewrite H2, H4, map_app|].
      split; [apply Forall_app; auto|]. rewrite !tall_app. cbn [map]. rewrite recorded_rec1.
      rewrite (as_en_call _ _ _ _ _ _ E) in P2. rewrite (app_assoc (theld t)), <- P. rewrite <- !app_assoc.
      transitivity (tall th ++ tall tp ++ tall th2 ++ tall tp2 ++ theld t2).
      { apply Permutation_app_head. rewrite Permutation_app_swap_app. reflexivity. }
      do 2 apply Permutation_app_head. exact P2.
  Qed.
End Timed.

Section TimedSep.
  Variables l0 step : Z.
  Variable res : resolution.
  Hypothesis Hs : 0 < step.
  Notation TSp := (TSp l0 step).
  Notation tg_ok := (tg_ok l0 step).

  Lemma ts_call op sp q opn so sp1 : not_clear op -> coherent step res op -> TSp sp q opn -> spec_call step res op sp = (so, sp1) ->
    exists q1 opn1 th tp, TSp sp1 q1 opn1 /\ po_handler so = map untime th /\ Forall tg_ok th /\
      popped [op] [po_ptr so] = map untime tp /\ Forall tg_ok tp /\
      Permutation (tall th ++ tall tp ++ tall q1 ++ opn1) ((tall q ++ opn) ++ accepted step res [op] [po_bool so]).
  Proof.
    intros HN HC TS E. destruct op; simpl in HN, HC; try contradiction; cbn [spec_call] in E.
    - rewrite HC in E. destruct (t_put l0 step Hs _ _ _ _ _ _ _ _ TS E) as (q1 & opn1 & th & T1 & H1 & F1 & H2 & P).
      exists q1, opn1, th, []. split; auto. split; auto. split; auto. split; auto. split; auto. simpl. destruct (po_bool so) as [[|]|]; auto.
    - rewrite HC in E. destruct (t_put l0 step Hs _ _ _ _ _ _ _ _ TS E) as (q1 & opn1 & th & T1 & H1 & F1 & H2 & P).
      exists q1, opn1, th, []. split; auto. split; auto. split; auto. split; auto. split; auto. simpl. destruct (po_bool so) as [[|]|]; auto.
    - pose proof (t_advance l0 step Hs (acc_time step res c ts) h _ _ _ TS) as A. destruct (spec_deliver _ _) as [out sp2].
      destruct A as (q1 & opn1 & tout & T1 & -> & FO & P & _). injection E as <- <-.
      exists q1, opn1, tout, []. split; auto. split; auto. split; auto. split; auto. split; auto. simpl. now rewrite app_nil_r.
    - pose proof TS as (S1 & S2 & S3 & S4 & S5). destruct q as [|g q]; simpl in S1; rewrite S1 in E; injection E as <- <-.
      + exists [], opn, [], []. simpl. rewrite app_nil_r. auto 10.
      + inversion S5; subst. exists q, opn, [], [g]. split; [split; [reflexivity|]; split; [exact S2|]; split; [exact S3|]; split; assumption|].
        split; auto. split; auto. split; auto. split; auto. simpl. now rewrite !app_nil_r, <- app_assoc.
    - pose proof TS as (S1 & S2 & S3 & S4 & S5). destruct q as [|g q]; simpl in S1; rewrite S1 in E; injection E as <- <-.
      + exists [], [], [], (match opn with [] => [] | _ => [(sp_cur sp, opn)] end).
        split; [split; [reflexivity|]; split; [reflexivity|]; split; [exact S3|]; split; constructor|].
        split; auto. split; auto. split; [simpl; rewrite S2; destruct opn; reflexivity|]. split; [destruct opn; constructor; [split; [discriminate|exact S4]|constructor]|].
        simpl. destruct opn; simpl; rewrite ?app_nil_r; auto.
      + inversion S5; subst. exists q, opn, [], [g]. split; [split; [reflexivity|]; split; [exact S2|]; split; [exact S3|]; split; assumption|].
        split; auto. split; auto. split; auto. split; auto. simpl. now rewrite !app_nil_r, <- app_assoc.
    - injection E as <- <-. exists q, opn, [], []. simpl. rewrite app_nil_r. auto 10.
  Qed.

  Lemma ts_run ops : Forall not_clear ops -> Forall (coherent step res) ops -> forall sp q opn, TSp sp q opn ->
    let '(os, sp1) := spec_run step res ops sp in
    exists q1 opn1 th tp, TSp sp1 q1 opn1 /\ flat_map po_handler os = map untime th /\ Forall tg_ok th /\
      popped ops (map po_ptr os) = map untime tp /\ Forall tg_ok tp /\
      Permutation (tall th ++ tall tp ++ tall q1 ++ opn1) ((tall q ++ opn) ++ accepted step res ops (map po_bool os)).
  Proof.
    induction ops as [|op ops IH]; intros HN HC sp q opn TS.
    - exists q, opn, [], []. simpl. rewrite app_nil_r. auto 10.
    - simpl spec_run. destruct (spec_call step res op sp) as [so sp1] eqn:E.
      destruct (ts_call op sp q opn so sp1 (Forall_inv HN) (Forall_inv HC) TS E) as (q1 & opn1 & th & tp & T1 & H1 & F1 & H2 & F2 & P).
      specialize (IH (Forall_inv_tail HN) (Forall_inv_tail HC) sp1 q1 opn1 T1). destruct (spec_run step res ops sp1) as [os sp2].
      destruct IH as (q2 & opn2 & th2 & tp2 & T2 & H3 & F3 & H4 & F4 & P2).
      exists q2, opn2, (th ++ th2), (tp ++ tp2). split; auto. split; [simpl; now rewrite H1, H3, map_app|]. split; [apply Forall_app; auto|].
      split. { cbn [map popped] in *. rewrite app_nil_r in H2. now rewrite map_app, H4, H2. }
      split; [apply Forall_app; auto|]. rewrite !tall_app. cbn [map accepted] in *. rewrite app_nil_r in P.
      rewrite (app_assoc (tall q ++ opn)), <- P. rewrite <- !app_assoc.
      transitivity (tall th ++ tall tp ++ tall th2 ++ tall tp2 ++ tall q2 ++ opn2).
      { apply Permutation_app_head. rewrite Permutation_app_swap_app. reflexivity. }
      do 2 apply Permutation_app_head. rewrite P2, <- !app_assoc. reflexivity.
  Qed.
End TimedSep.

Section Final.
  Variable ne : nat -> list Z -> list Z.
  Hypothesis Hne : nth_element_ok ne.

  Lemma Forall2_untime {B} (R : group -> B -> Prop) l m : Forall2 R (map untime l) m -> Forall2 (fun q => R (untime q)) l m.
  Proof. revert m. induction l as [|q l IH]; intros m H; inversion H; subst; constructor; auto. Qed.

  Lemma sep_windows so ops s0 outs s : 0 < so_step so -> idle ne so s0 ->
    Forall sop_typed ops -> Forall not_clear ops -> Forall (coherent (so_step so) (so_res so)) ops ->
    s_run ne s0 ops = Ok (outs, s) ->
    let step := so_step so in
    let l0 := sep_label s0 in
    exists groups opn : list _,
      Forall2 (fun q a => record_of ne (so_red so) (fst q) (map snd (snd q)) a) groups
        (flat_map out_handler outs ++ popped ops (map out_ptr outs) ++ s_list s) /\
      Permutation (flat_map snd groups ++ opn) (accepted step (so_res so) ops (map out_bool outs)) /\
      Forall (fun q => snd q <> [] /\ Forall (fun p => window_of l0 step (fst p) = fst q) (snd q)) groups /\
      Forall (fun p => window_of l0 step (fst p) = sep_label s) opn.
  Proof.
    intros Hs ID HT HN HC E step l0. pose proof (idle_sim ne Hne so s0 Hs ID) as SI.
    pose proof (run_sim ne Hne (so_red so) step (so_res so) ops Hs HT s0 _ outs s SI E) as R.
    assert (T0 : TSp l0 step (mk_spec l0 [] []) [] []).
    { split; auto. split; auto. split; [exists 0; simpl; lia|]. split; constructor. }
    pose proof (ts_run l0 step (so_res so) Hs ops HN HC _ _ _ T0) as T. fold l0 in R.
    destruct (spec_run step (so_res so) ops _) as [os sp]. destruct R as ((S1 & S2 & S3 & S4 & S5 & S6) & RB & RH & RP).
    destruct T as (q & opn & th & tp & (Q1 & Q2 & Q3 & Q4 & Q5) & H1 & F1 & H2 & F2 & P).
    exists (th ++ tp ++ q), opn. split; [|split; [|split]].
    - apply Forall2_app; [|apply Forall2_app]; apply (Forall2_untime (rel ne (so_red so))); rewrite <- ?H1, <- ?H2, <- ?Q1; assumption.
    - rewrite <- RB. simpl in P. rewrite <- P. fold (tall (th ++ tp ++ q)). now rewrite !tall_app, <- !app_assoc.
    - apply Forall_app; split; [|apply Forall_app; split]; auto.
    - eapply Forall_impl; [|exact Q4]. intros p Hp. unfold in_window in Hp. rewrite Hp. unfold sep_label. lia.
  Qed.

  Lemma agg_windows o ops g0 outs g : 0 < so_step (ao_sep o) -> g_idle ne o g0 ->
    Forall gop_typed ops -> Forall gnot_clear ops -> Forall (gcoherent (so_step (ao_sep o)) (so_res (ao_sep o))) ops ->
    g_run ne g0 ops = Ok (outs, g) ->
    let step := so_step (ao_sep o) in
    let l0 := agg_label g0 in
    exists groups opn : list _,
      Forall2 (fun q d => reported_as ne (so_red (ao_sep o)) (fst q) (map snd (snd q)) d) groups
        (flat_map out_handler outs ++ gpopped ops (map out_ptr outs) ++ g_list g ++ s_list (g_sep g)) /\
      Permutation (flat_map snd groups ++ opn) (recorded step (so_res (ao_sep o)) (g_enabled g0) ops (map out_bool outs)) /\
      Forall (fun q => snd q <> [] /\ Forall (fun p => window_of l0 step (fst p) = fst q) (snd q)) groups /\
      Forall (fun p => window_of l0 step (fst p) = agg_label g) opn.
  Proof.
    intros Hs ID HT HN HC E step l0. pose proof (idle_asim ne Hne o g0 Hs ID) as SI.
    pose proof (grun_sim_w ne Hne _ _ step (so_res (ao_sep o)) ops Hs HT g0 _ outs g SI E) as R.
    assert (T0 : TInv l0 step (mk_as (mk_spec l0 [] []) [] (g_enabled g0)) ([], [], [])).
    { split; auto. split; [constructor|]. split; auto. split; auto. split; [exists 0; simpl; lia|]. split; constructor. }
    pose proof (t_run l0 step (so_res (ao_sep o)) Hs ops HN HC _ _ T0) as T. fold l0 in R.
    destruct (aspec_run step (so_res (ao_sep o)) ops _) as [os a]. destruct R as (((S1 & S2 & S3 & S4 & S5 & S6) & RQ & _) & RB & RH & RP).
    destruct T as ([[q sq] opn] & th & tp & (A1 & A2 & (Q1 & Q2 & Q3 & Q4 & Q5)) & H1 & F1 & H2 & F2 & P). cbn [fst snd] in *.
    exists (th ++ tp ++ q ++ sq), opn. split; [|split; [|split]].
    - assert (D : forall l m, Forall2 (drel ne (so_red (ao_sep o)) (ao_out o)) l m -> Forall2 (wrel ne (so_red (ao_sep o))) l m)
        by (intros l m H; eapply Forall2_impl; [|exact H]; intros x y Hx; eapply drel_w; exact Hx).
      assert (D2 : forall l m, Forall2 (rel ne (so_red (ao_sep o))) l m -> Forall2 (wrel ne (so_red (ao_sep o))) l m)
        by (intros l m H; eapply Forall2_impl; [|exact H]; intros x y Hx; eapply rel_w; exact Hx).
      apply Forall2_app; [|apply Forall2_app; [|apply Forall2_app]]; apply (Forall2_untime (wrel ne (so_red (ao_sep o)))); rewrite <- ?H1, <- ?H2, <- ?A1, <- ?Q1; auto.
    - rewrite <- RB. unfold theld in P. simpl in P. rewrite <- P. fold (tall (th ++ tp ++ q ++ sq)). now rewrite !tall_app, <- !app_assoc.
    - apply Forall_app; split; [|apply Forall_app; split; [|apply Forall_app; split]]; auto.
    - eapply Forall_impl; [|exact Q4]. intros p Hp. unfold in_window in Hp. rewrite Hp. unfold agg_label, sep_label. lia.
  Qed.
End Final.
