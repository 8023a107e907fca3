(** C96: an aggregator whose handlers call back into it.  Model: ModelReenter.v; vocabulary: SpecReenter.v. *)
From Coq Require Import ZArith List Bool Arith Lia Permutation Sorted.
From Verif Require Import Base SortFacts ModelTypes ModelAvg ModelReducer SpecReducer ModelSeparator SpecSeparator ModelAggregator SpecAggregator
  ModelAlloc SpecAlloc ModelAggAlloc SpecAggAlloc ReducerProofs MultiRun AllocProofs SepProofs SepRun SepSafe AggProofs AggRun AggFinal ThrowProofs AggAllocProofs
  ModelReenter SpecReenter ReenterProofs ReenterRun PropsReducer PropsSeparator PropsAggregator.
Import ListNotations.
Local Open Scope Z_scope.

Lemma new_good ne o c rnd ts g0 : agg_new o c rnd ts = Ok g0 -> Good ne (so_red (ao_sep o)) (so_step (ao_sep o)) (so_res (ao_sep o)) (g_sep g0) /\ g_enabled g0 = true.
Proof.
  unfold agg_new. destruct (sep_new _ _ _ _) as [s| |] eqn:E; cbn [bind]; try discriminate. intros X; injection X as <-. cbn [g_sep g_enabled]. split; [|reflexivity].
  unfold sep_new in E. destruct (get_ts _ _ _ _); cbn [bind] in E; try discriminate.
  match type of E with bind ?y _ = _ => destruct y; cbn [bind] in E; try discriminate end.
  destruct (chk _) as [nx| |] eqn:En; cbn [bind] in E; try discriminate. injection E as <-. apply chk_ok in En as [-> In].
  split; [|split; [exact In|split; reflexivity]]. exists []. split; [constructor|reflexivity].
Qed.

(** The bound on the recursion in the model is only a bound: once a program ends with it, it ends the same way with any larger one ... *)
Theorem C96_bound : forall ne n m cs g, re_calls ne n cs g <> Exn -> (n <= m)%nat -> re_calls ne m cs g = re_calls ne n cs g.
Proof. intros ne n m cs g. apply calls_more. Qed.
Print Assumptions C96_bound.

(** ... and every program ends, whatever its handlers call, clear() included. *)
Theorem C96_ends : forall ne, nth_element_ok ne -> forall o c rnd ts g0 cs,
  agg_new o c rnd ts = Ok g0 -> Forall (rc_all gop_typed) cs -> exists n, re_calls ne n cs g0 <> Exn.
Proof.
  intros ne Hne o c rnd ts g0 cs E0 T. destruct (new_good ne _ _ _ _ _ E0) as [G _]. exact (re_ends ne Hne cs T _ _ _ g0 G).
Qed.
Print Assumptions C96_ends.

(** Handlers that only receive: what happens is what the model without callbacks says. *)
Theorem C96_plain : forall ne, nth_element_ok ne -> forall o c rnd ts g0 cs evs g,
  agg_new o c rnd ts = Ok g0 -> Forall gop_typed (map fst cs) -> Forall receives_only cs ->
  (exists n, re_calls ne n cs g0 = Ok (evs, g)) <->
  (exists outs, g_run ne g0 (map fst cs) = Ok (outs, g) /\ evs = as_events true (map fst cs) outs).
Proof.
  intros ne Hne o c rnd ts g0 cs evs g E0 T R. destruct (new_good ne _ _ _ _ _ E0) as [G En]. split.
  - intros (n & E). rewrite <- En. eapply plain_fwd; eauto.
  - intros (outs & E & ->). rewrite <- En. eapply plain_back; eauto.
Qed.
Print Assumptions C96_plain.

(** Whatever the handlers call, except clear(): the number of events is kept ... *)
Theorem C96_conservation : forall ne, nth_element_ok ne -> forall o c rnd ts g0 n cs evs g p,
  agg_new o c rnd ts = Ok g0 -> Forall (rc_all gop_typed) cs -> Forall (rc_all gnot_clear) cs -> re_calls ne n cs g0 = Ok (evs, g) -> g_current ne g = Ok p ->
  u64 (sum_count (handed_ evs ++ popped_ evs ++ g_list g ++ s_list (g_sep g)) + match p with Some d => ad_count d | None => 0 end) =
  u64 (declared (taken_ evs)).
Proof.
  intros ne Hne o c rnd ts g0 n cs evs g p E0 HT HN E Ep. destruct (new_rinv _ _ _ _ _ E0) as (I0 & H0 & N0).
  destruct (proj1 (proj2 (re_flow ne Hne (so_red (ao_sep o)) n)) _ _ _ _ _ I0 (rc_both _ HT HN) E) as (ac & I & C & _). rewrite H0 in C.
  change (sum_count [] + a_declared account0) with 0 in C. rewrite Z.add_0_l in C. rewrite <- C.
  pose proof (current_flow ne Hne _ _ _ _ I Ep) as P. unfold held. destruct p as [d|].
  - destruct P as [-> _]. rewrite Z.add_comm, u64_add_l. f_equal. lia.
  - rewrite P. reflexivity.
Qed.
Print Assumptions C96_conservation.

(** ... and no value is reported more often than it was given. *)
Theorem C96_values : forall ne, nth_element_ok ne -> forall o c rnd ts g0 n cs evs g p,
  agg_new o c rnd ts = Ok g0 -> Forall (rc_all gop_typed) cs -> Forall (rc_all gnot_clear) cs -> re_calls ne n cs g0 = Ok (evs, g) -> g_current ne g = Ok p ->
  submultiset (flat_map ad_data (handed_ evs ++ popped_ evs ++ g_list g ++ s_list (g_sep g)) ++ match p with Some d => ad_data d | None => [] end)
    (values (taken_ evs)).
Proof.
  intros ne Hne o c rnd ts g0 n cs evs g p E0 HT HN E Ep. destruct (new_rinv _ _ _ _ _ E0) as (I0 & H0 & N0).
  destruct (proj1 (proj2 (re_flow ne Hne (so_red (ao_sep o)) n)) _ _ _ _ _ I0 (rc_both _ HT HN) E) as (ac & I & _ & S). rewrite H0 in S.
  pose proof (current_flow ne Hne _ _ _ _ I Ep) as P. eapply submultiset_trans; [|exact S].
  apply submultiset_app; [apply submultiset_refl|]. destruct p as [d|]; [exact (proj2 P)|]. exists (a_tried ac). reflexivity.
Qed.
Print Assumptions C96_values.

(** The handlers are given the records in the order of their windows, each a window that is over when the program ends.
    (A window may come twice, C96_twice_refuted.) *)
Theorem C96_order : forall ne, nth_element_ok ne -> forall o c rnd ts g0 n cs evs g,
  agg_new o c rnd ts = Ok g0 -> 0 < so_step (ao_sep o) -> Forall (rc_all gop_typed) cs -> Forall (rc_all gnot_clear) cs -> re_calls ne n cs g0 = Ok (evs, g) ->
  StronglySorted Z.le (map ad_ts (handed_ evs)) /\ Forall (fun d => agg_label g0 <= ad_ts d < agg_label g) (handed_ evs) /\ agg_label g0 <= agg_label g.
Proof.
  intros ne Hne o c rnd ts g0 n cs evs g E0 Hs HT HN E. destruct (new_good ne _ _ _ _ _ E0) as [G _].
  destruct (proj1 (proj2 (re_order ne Hne _ _ _ n Hs)) _ _ _ _ G (rc_both _ HT HN) E) as [_ (A & B & C)].
  split; [exact B|]. split; [|exact A]. unfold times in C. rewrite Forall_map in C. exact C.
Qed.
Print Assumptions C96_order.

Definition re_first : rcall := (GoAdd (SmScalar 103 7 1) 0 0, []).
Definition re_late : gop := GoAdd (SmScalar 104 42 1) 0 0.
Definition re_push (bs : list beh) : rcall := (GoPush (SmScalar 125 5 1) true 0 0, bs).
Definition stamps (evs : list rev_) : list (Z * list Z) := map (fun d => (ad_ts d, ad_data d)) (handed_ evs).
Definition answers (evs : list rev_) : list (option bool) := flat_map (fun e => match e with RDone _ _ o => [out_bool o] | RHanded _ => [] end) evs.

(** A sample a handler adds can be reported for a window it does not belong to: the sample of time 104 is accepted, and handed over in the
    record of 110, because the window of 100 has been taken out already and _next_time still says 110. *)
Theorem C96_window_refuted : exists n evs g, agg_new gx_o 0 0 108 = Ok gx_g0 /\
  re_calls ne_rev n [re_first; re_push [Beh [(re_late, [])]]] gx_g0 = Ok (evs, g) /\
  answers evs = [Some true; Some true; Some true] /\ In (RDone true re_late (mk_sout (Some true) [] None)) evs /\
  stamps evs = [(100, [7]); (110, [42])].
Proof. exists 20%nat. eexists _, _. split; [apply gx_new|]. split; [vm_compute; reflexivity|]. vm_compute. auto 10. Qed.
Print Assumptions C96_window_refuted.

(** A push can be refused although nothing later has been seen: the handler pushes a sample of the same time, the windows are
    closed by both calls, and then 125 is too late. *)
Theorem C96_rejected_refuted : exists n evs g, agg_new gx_o 0 0 108 = Ok gx_g0 /\
  re_calls ne_rev n [re_first; re_push [Beh [re_push []]]] gx_g0 = Ok (evs, g) /\
  answers evs = [Some true; Some true; Some false] /\ agg_label g = 130.
Proof. exists 20%nat. eexists _, _. split; [apply gx_new|]. split; [vm_compute; reflexivity|]. vm_compute. auto. Qed.
Print Assumptions C96_rejected_refuted.

(** Two records can bear the same time. *)
Theorem C96_twice_refuted : exists n evs g, agg_new gx_o 0 0 108 = Ok gx_g0 /\
  re_calls ne_rev n [re_first; re_push [Beh [(re_late, []); re_push []]]] gx_g0 = Ok (evs, g) /\
  stamps evs = [(100, [7]); (100, [42])].
Proof. exists 20%nat. eexists _, _. split; [apply gx_new|]. split; [vm_compute; reflexivity|]. vm_compute. auto. Qed.
Print Assumptions C96_twice_refuted.

(** One push can call its handler any number of times, each call inside the one before, for the same window: a handler that adds a sample
    and pushes with itself as the handler goes as deep as it likes. *)
Fixpoint tower (k : nat) : beh := match k with O => Beh [] | S k' => Beh [(re_late, []); re_push [tower k']] end.
Definition tw_calls (k : nat) : list rcall := match tower k with Beh cs => cs end.
Definition tw_in : agg := Eval vm_compute in match g_call ne_rev (fst re_first) gx_g0 with Ok (_, g) => g | _ => gx_g0 end.
Definition tw_e : agg := Eval vm_compute in match r_detach ne_rev (s_red (g_sep tw_in)) with Ok (_, r) => set_red r tw_in | _ => tw_in end.
Definition tw_late : agg := Eval vm_compute in match g_call ne_rev re_late tw_e with Ok (_, g) => g | _ => tw_e end.
Lemma tower_push gA x d : gA = tw_in \/ gA = tw_late ->
  r_detach ne_rev (s_red (g_sep gA)) = Ok (Some x, s_red (g_sep tw_e)) -> g_finish ne_rev (g_out gA) (ad_set_ts 100 x) = Ok d ->
  forall k n evs g, Z.of_nat k <= 2 ^ 59 -> re_calls ne_rev n (tw_calls (S k)) tw_e = Ok (evs, g) ->
  s_next (g_sep g) = 130 + 10 * Z.of_nat k -> s_step (g_sep g) = 10 ->
  exists m evs' g', re_call ne_rev m (re_push [tower (S k)]) gA = Ok (evs', g') /\ handed_ evs' = d :: handed_ evs /\
    s_next (g_sep g') = 130 + 10 * Z.of_nat (S k) /\ s_step (g_sep g') = 10.
Proof.
  intros HA Hd Hf k n evs g Hk E Hn Hst.
  assert (A1 : g_enabled gA = true) by (destruct HA as [-> | ->]; reflexivity).
  assert (A2 : s_next (g_sep gA) = 110) by (destruct HA as [-> | ->]; reflexivity).
  assert (A3 : s_step (g_sep gA) = 10) by (destruct HA as [-> | ->]; reflexivity).
  assert (A4 : s_res (g_sep gA) = RSeconds) by (destruct HA as [-> | ->]; reflexivity).
  assert (A5 : set_red (s_red (g_sep tw_e)) gA = tw_e) by (destruct HA as [-> | ->]; reflexivity).
  assert (B : forall z, 0 <= z <= 2 ^ 63 - 1 -> chk z = Ok z).
  { intros z Hz. apply chk_i64. unfold i64, i64_min, i64_max. lia. }
  pose proof (Nat2Z.is_nonneg k) as K0.
  exists (S (S (S n))), (RHanded d :: evs ++ [RDone true (fst (re_push [])) (mk_sout (Some false) [] None)]), (set_next (140 + 10 * Z.of_nat k) g).
  assert (EL : re_loop ne_rev (S (S n)) true 120 [tower (S k)] gA = Ok (RHanded d :: evs, set_next (140 + 10 * Z.of_nat k) g)).
  { rewrite re_loop_S. rewrite A2, A3. change (110 <=? 120) with true. cbn iota. rewrite Hd. cbn [bind]. cbv zeta. rewrite A5.
    change (110 - 10) with 100. rewrite (B 100) by lia. cbn [bind]. rewrite Hf. cbn [bind].
    assert (EC : re_calls ne_rev (S n) (tw_calls (S k)) tw_e = Ok (evs, g)) by (rewrite (calls_more ne_rev n (S n)); [exact E|rewrite E; discriminate|lia]).
    match goal with |- context [re_calls ne_rev (S n) ?c tw_e] => change c with (tw_calls (S k)) end. rewrite EC. cbn [bind tl]. rewrite Hn, Hst.
    replace (130 + 10 * Z.of_nat k + 10) with (140 + 10 * Z.of_nat k) by lia. rewrite (B (140 + 10 * Z.of_nat k)) by lia. cbn [bind].
    rewrite re_loop_S. cbn [set_next g_sep g_set_sep s_next].
    rewrite (proj2 (Z.leb_gt (140 + 10 * Z.of_nat k) 120)) by lia. cbn [bind]. rewrite app_nil_r. reflexivity. }
  split; [|split; [|split]].
  - unfold re_push at 1. rewrite re_call_S. cbv zeta. rewrite A1, A2, A3, A4. cbn [negb].
    change (get_ts 10 RSeconds 0 (sm_ts (SmScalar 125 5 1))) with (Ok 120). cbn [bind]. change (get_ts 10 RSeconds 0 120) with (Ok 120). cbn [bind].
    change (120 <? 110) with false. cbn iota. rewrite EL. cbn [bind]. unfold re_take. cbn [set_next g_sep g_set_sep s_next s_step]. rewrite Hst.
    rewrite (B (140 + 10 * Z.of_nat k - 10)) by lia. cbn [bind]. rewrite (proj2 (Z.ltb_lt 120 (140 + 10 * Z.of_nat k - 10))) by lia. reflexivity.
  - change (RHanded d :: evs ++ [RDone true (fst (re_push [])) (mk_sout (Some false) [] None)])
      with ([RHanded d] ++ evs ++ [RDone true (fst (re_push [])) (mk_sout (Some false) [] None)]). rewrite !handed_app. cbn [handed_ flat_map app]. now rewrite app_nil_r.
  - cbn [set_next g_sep g_set_sep s_next]. lia.
  - exact Hst.
Qed.
Lemma tower_deep k : Z.of_nat k <= 2 ^ 59 -> exists n evs g, re_calls ne_rev n (tw_calls (S k)) tw_e = Ok (evs, g) /\
  s_next (g_sep g) = 130 + 10 * Z.of_nat k /\ s_step (g_sep g) = 10 /\ length (handed_ evs) = S k /\ Forall (fun d => ad_ts d = 100 /\ ad_data d = [42]) (handed_ evs).
Proof.
  induction k as [|k IH]; intros Hk.
  - exists 20%nat. eexists _, _. split; [vm_compute; reflexivity|]. split; [vm_compute; reflexivity|]. split; [vm_compute; reflexivity|].
    split; [vm_compute; reflexivity|]. vm_compute. repeat constructor.
  - destruct IH as (n & evs & g & E & Hn & Hst & Hl & Hf); [lia|].
    destruct (r_detach ne_rev (s_red (g_sep tw_late))) as [[[x|] r]| |] eqn:Ed; try (vm_compute in Ed; discriminate).
    destruct (g_finish ne_rev (g_out tw_late) (ad_set_ts 100 x)) as [d| |] eqn:Ef; [|vm_compute in Ed; injection Ed as <- <-; vm_compute in Ef; discriminate..].
    assert (X : r = s_red (g_sep tw_e) /\ ad_ts d = 100 /\ ad_data d = [42]).
    { vm_compute in Ed. injection Ed as <- <-. vm_compute in Ef. injection Ef as <-. split; [reflexivity|split; reflexivity]. }
    destruct X as (-> & X1 & X2).
    destruct (tower_push tw_late x d (or_intror eq_refl) Ed Ef k n evs g ltac:(lia) E Hn Hst) as (m & evs' & g' & E' & Hh & Hn' & Hs').
    exists (S (S (S m))), (RDone true re_late (mk_sout (Some true) [] None) :: evs'), g'. split; [|split; [exact Hn'|split; [exact Hs'|]]].
    + change (tw_calls (S (S k))) with [(re_late, [] : list beh); re_push [tower (S k)]]. rewrite re_calls_S.
      replace (re_call ne_rev (S (S m)) (re_late, []) tw_e) with (Ok ([RDone true re_late (mk_sout (Some true) [] None)], tw_late)) by (rewrite re_call_S; vm_compute; reflexivity).
      cbn [bind]. rewrite re_calls_S. rewrite (call_more ne_rev m (S m)), E' by (try lia; rewrite E'; discriminate). cbn [bind]. rewrite re_calls_nil || rewrite (re_calls_S ne_rev).
      destruct m; [discriminate|]. cbn [bind]. rewrite app_nil_r. reflexivity.
    + change (handed_ (RDone true re_late (mk_sout (Some true) [] None) :: evs')) with (handed_ evs'). rewrite Hh. cbn [length]. split; [lia|]. constructor; auto.
Qed.
Theorem C96_recursion_refuted : forall k, Z.of_nat k <= 2 ^ 59 -> exists n evs g, agg_new gx_o 0 0 108 = Ok gx_g0 /\
  re_calls ne_rev n [re_first; re_push [tower k]] gx_g0 = Ok (evs, g) /\
  length (handed_ evs) = S k /\ Forall (fun d => ad_ts d = 100) (handed_ evs).
Proof.
  intros [|k] Hk.
  - exists 20%nat. eexists _, _. split; [apply gx_new|]. split; [vm_compute; reflexivity|]. split; [vm_compute; reflexivity|]. vm_compute. repeat constructor.
  - destruct (tower_deep k) as (n & evs & g & E & Hn & Hst & Hl & Hf); [lia|].
    destruct (r_detach ne_rev (s_red (g_sep tw_in))) as [[[x|] r]| |] eqn:Ed; try (vm_compute in Ed; discriminate).
    destruct (g_finish ne_rev (g_out tw_in) (ad_set_ts 100 x)) as [d| |] eqn:Ef; [|vm_compute in Ed; injection Ed as <- <-; vm_compute in Ef; discriminate..].
    assert (X : r = s_red (g_sep tw_e) /\ ad_ts d = 100).
    { vm_compute in Ed. injection Ed as <- <-. vm_compute in Ef. injection Ef as <-. split; reflexivity. }
    destruct X as (-> & X1).
    destruct (tower_push tw_in x d (or_introl eq_refl) Ed Ef k n evs g ltac:(lia) E Hn Hst) as (m & evs' & g' & E' & Hh & _ & _).
    exists (S (S (S m))), (RDone true (fst re_first) (mk_sout (Some true) [] None) :: evs'), g'. split; [apply gx_new|]. split.
    + rewrite re_calls_S.
      replace (re_call ne_rev (S (S m)) re_first gx_g0) with (Ok ([RDone true (fst re_first) (mk_sout (Some true) [] None)], tw_in)) by (unfold re_first; rewrite re_call_S; vm_compute; reflexivity).
      cbn [bind]. rewrite re_calls_S. rewrite (call_more ne_rev m (S m)), E' by (try lia; rewrite E'; discriminate). cbn [bind].
      destruct m; [discriminate|]. rewrite re_calls_nil. cbn [bind]. rewrite app_nil_r. reflexivity.
    + change (handed_ (RDone true (fst re_first) (mk_sout (Some true) [] None) :: evs')) with (handed_ evs'). rewrite Hh. cbn [length]. split; [lia|].
      constructor; [exact X1|]. eapply Forall_impl; [|exact Hf]. cbn beta. tauto.
Qed.
Print Assumptions C96_recursion_refuted.

(** The premises of the general theorems, met by handlers that add, push with a handler of their own, pop, separate and disable. *)
Definition rw_calls : list rcall :=
  [re_first; re_push [Beh [(re_late, []); (GoPush (SmArr 127 [1; 2] 6) true 0 0, [Beh [(GoSeparate 150 true false 0, [Beh []])]])]; Beh [(GoEnable false, [])]];
   (GoAdd (SmScalar 175 3 2) 0 0, []); (GoSeparate 200 true false 0, [Beh [(GoAdd (SmScalar 201 4 1) 0 0, []); (GoPop, []); (GoForcePop, [])]]);
   (GoPush (SmScalar 215 8 2) false 0 0, []); (GoPop, [])].
Example C96_witness : agg_new gx_o 0 0 108 = Ok gx_g0 /\ Forall (rc_all gop_typed) rw_calls /\ Forall (rc_all gnot_clear) rw_calls /\
  exists evs g p, re_calls ne_rev 40 rw_calls gx_g0 = Ok (evs, g) /\ g_current ne_rev g = Ok (Some p) /\
  stamps evs = [(100, [7]); (100, [42]); (170, [3])] /\ map (fun d => (ad_ts d, ad_data d)) (popped_ evs) = [(200, [4])] /\ ad_data p = [8] /\
  values (taken_ evs) = [7; 42; 3; 4; 8] /\ declared (taken_ evs) = 7 /\ agg_label g = 210.
Proof.
  split; [apply gx_new|]. split; [|split].
  - unfold rw_calls, re_first, re_push, re_late.
    repeat first [apply Forall_nil | apply Forall_cons | apply BehAll | split; cbn [fst snd] | exact I | typed].
  - unfold rw_calls, re_first, re_push, re_late. repeat first [apply Forall_nil | apply Forall_cons | apply BehAll | split; cbn [fst snd] | exact I].
  - eexists _, _, _. split; [vm_compute; reflexivity|]. split; [vm_compute; reflexivity|]. vm_compute. auto 10.
Qed.
Definition rw_plain : list rcall := map (fun op => (op, [Beh []])) gx_ops.
Example C96_witness_plain : Forall gop_typed (map fst rw_plain) /\ Forall receives_only rw_plain /\
  exists n evs g, re_calls ne_rev n rw_plain gx_g0 = Ok (evs, g) /\ map ad_ts (handed_ evs) = [100] /\ length evs = 15%nat.
Proof.
  split; [|split].
  - unfold rw_plain, gx_ops. cbn [map fst]. repeat first [apply Forall_nil | apply Forall_cons | exact I | split; [typed|exact I]].
  - repeat constructor.
  - exists 60%nat. eexists _, _. split; [vm_compute; reflexivity|]. vm_compute. auto.
Qed.
