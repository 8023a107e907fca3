(** C23 for whole histories of one aggregator: what outgoing_reduced_size does to the records, compared with the same aggregator without it. *)
From Coq Require Import ZArith List Bool Lia Arith.
From Verif Require Import Base SortFacts ModelTypes ModelAvg ModelReducer SpecReducer ModelSeparator SpecSeparator
  ModelAggregator SpecAggregator AggProofs PropsReducer PropsSeparator PropsAggregator.
Import ListNotations.
Local Open Scope Z_scope.

(** The record [d] is the record [full] with some of its values left out: none if they are at most [out] or [out] is 0, otherwise as many as to
    leave at least half of them and at most [out], or between [out] and one and a half times [out]. *)
Definition thinned (out : nat) (d full : adata) : Prop :=
  ad_info d = ad_info full /\ ad_perc d = ad_perc full /\ subseq (ad_data d) (ad_data full) /\
  let n := length (ad_data full) in let m := length (ad_data d) in
  ((out = 0 \/ n <= out) -> ad_data d = ad_data full)%nat /\
  (out <> 0 -> out < n -> n < 2 * out -> n / 2 <= m <= out /\ 1 <= m)%nat /\
  (out <> 0 -> 2 * out <= n -> out <= m <= out + out / 2)%nat.
(** The two effects of one call.  separate() with a handler is the call that thins nothing (C25). *)
Definition thinned_call (out : nat) (op : gop) (x full : sout) : Prop :=
  out_bool x = out_bool full /\
  match op with GoSeparate _ true _ _ => out_handler x = out_handler full | _ => Forall2 (thinned out) (out_handler x) (out_handler full) end /\
  match out_ptr x, out_ptr full with Some d, Some f => thinned out d f | None, None => True | _, _ => False end.

Section Thin.
  Variable ne : nat -> list Z -> list Z.
  Variable out : nat.
  Definition thin (d : adata) : adata := mk_adata (ad_info d) (ad_perc d) (g_reduce_ out (ad_data d)).
  Definition lift (g : agg) : agg := mk_agg (g_sep g) out (g_enabled g) (map thin (g_list g)) (g_id g).
  Definition thin_out (op : gop) (y : sout) : sout :=
    mk_sout (out_bool y) (match op with GoSeparate _ _ _ _ => out_handler y | _ => map thin (out_handler y) end) (option_map thin (out_ptr y)).
  Lemma finish_thin a : g_finish ne out a = (d <- g_finish ne 0 a ;; Ok (thin d)).
  Proof. unfold g_finish. destruct (g_aggregate2_ ne a); reflexivity. Qed.
  Lemma finish_all_thin l : g_finish_all ne out l = (ds <- g_finish_all ne 0 l ;; Ok (map thin ds)).
  Proof.
    induction l as [|a l IH]; [reflexivity|]. cbn [g_finish_all]. rewrite finish_thin, IH.
    destruct (g_finish ne 0 a); cbn [bind]; auto. destruct (g_finish_all ne 0 l); reflexivity.
  Qed.
  Lemma aggregate0_thin g : g_out g = O -> g_aggregate0_ ne (lift g) = (g1 <- g_aggregate0_ ne g ;; Ok (lift g1)).
  Proof.
    intros E. unfold g_aggregate0_, lift. cbn [g_sep g_out g_enabled g_list g_id]. rewrite finish_all_thin, E.
    destruct (g_finish_all ne 0 _); cbn [bind]; auto. cbn [g_sep g_out g_enabled g_list g_id]. rewrite map_app. reflexivity.
  Qed.
  Lemma aggregate0_out g g1 : g_aggregate0_ ne g = Ok g1 -> g_out g1 = g_out g.
  Proof. unfold g_aggregate0_. destruct (g_finish_all ne _ _); cbn [bind]; intros E; try discriminate. injection E as <-. reflexivity. Qed.
  Lemma lift_set_sep s g : g_set_sep s (lift g) = lift (g_set_sep s g).
  Proof. reflexivity. Qed.
  Lemma add_thin f g : g_out g = O -> g_add_with ne f (lift g) = ('(b, g1) <- g_add_with ne f g ;; Ok (b, lift g1)).
  Proof.
    intros E. unfold g_add_with. change (g_enabled (lift g)) with (g_enabled g). change (g_sep (lift g)) with (g_sep g). destruct (g_enabled g); [|reflexivity].
    cbn [negb]. destruct (f (g_sep g)) as [[[b r] s]| |]; cbn [bind]; auto. destruct b; [|reflexivity]. cbn [negb]. rewrite lift_set_sep, aggregate0_thin by exact E.
    destruct (g_aggregate0_ ne _); reflexivity.
  Qed.
  Lemma add_out f g b g1 : g_add_with ne f g = Ok (b, g1) -> g_out g1 = g_out g.
  Proof.
    unfold g_add_with. destruct (g_enabled g); cbn [negb]; [|intros E; injection E as <- <-; reflexivity].
    destruct (f (g_sep g)) as [[[b0 r] s]| |]; cbn [bind]; try discriminate. destruct b0; cbn [negb]; [|intros E; injection E as <- <-; reflexivity].
    destruct (g_aggregate0_ ne _) eqn:A; cbn [bind]; try discriminate. intros E. injection E as <- <-. apply aggregate0_out in A. exact A.
  Qed.
  Lemma push_thin f p h g : g_out g = O -> g_push_with ne f p h (lift g) = ('(b, rs, g1) <- g_push_with ne f p h g ;; Ok (b, map thin rs, lift g1)).
  Proof.
    intros E. unfold g_push_with. change (g_enabled (lift g)) with (g_enabled g). change (g_sep (lift g)) with (g_sep g). destruct (g_enabled g); [|reflexivity].
    cbn [negb]. destruct h; cbn [negb].
    - destruct (p (g_sep g)) as [[[b r] s]| |]; cbn [bind]; auto. change (g_out (lift g)) with out. rewrite finish_all_thin, E. destruct (g_finish_all ne 0 r); reflexivity.
    - rewrite add_thin by exact E. destruct (g_add_with ne f g) as [[b g1]| |]; reflexivity.
  Qed.
  Lemma push_out f p h g b rs g1 : g_push_with ne f p h g = Ok (b, rs, g1) -> g_out g1 = g_out g.
  Proof.
    unfold g_push_with. destruct (g_enabled g); cbn [negb]; [|intros E; injection E as <- <- <-; reflexivity]. destruct h; cbn [negb].
    - destruct (p (g_sep g)) as [[[b0 r] s]| |]; cbn [bind]; try discriminate. destruct (g_finish_all ne _ r); cbn [bind]; try discriminate. intros E. injection E as <- <- <-. reflexivity.
    - destruct (g_add_with ne f g) as [[b0 g2]| |] eqn:A; cbn [bind]; try discriminate. intros E. injection E as <- <- <-. eapply add_out; exact A.
  Qed.
  Lemma call_thin op g : g_out g = O -> g_call ne op (lift g) = ('(y, g1) <- g_call ne op g ;; Ok (thin_out op y, lift g1)).
  Proof.
    intros E. destruct op as [x c1 c2|x h c1 c2|ts h f c| | | |v|ts c]; cbn [g_call].
    - destruct x; cbn [bind]; auto; unfold g_add, g_add_arr, g_add_red; rewrite add_thin by exact E; destruct (g_add_with ne _ g) as [[b g1]| |]; reflexivity.
    - destruct x; cbn [bind]; auto; unfold g_push, g_push_arr, g_push_red; rewrite push_thin by exact E; destruct (g_push_with ne _ _ h g) as [[[b rs] g1]| |]; reflexivity.
    - unfold g_separate. change (g_sep (lift g)) with (g_sep g). destruct (s_separate ne c ts h f (g_sep g)) as [[[b r] s]| |]; cbn [bind]; auto.
      rewrite lift_set_sep, aggregate0_thin by exact E. destruct (g_aggregate0_ ne _); reflexivity.
    - destruct g as [s o e [|d l] i]; reflexivity.
    - unfold g_force_pop. change (g_sep (lift g)) with (g_sep g). destruct (s_force_pop ne (g_sep g)) as [[[a|] s]| |]; cbn [bind]; auto.
      change (g_out (lift g)) with out. rewrite finish_thin, E. destruct (g_finish ne 0 a); reflexivity.
    - unfold g_current. change (g_sep (lift g)) with (g_sep g). destruct (s_get_current ne (g_sep g)) as [[a|]| |]; cbn [bind]; auto.
      change (g_out (lift g)) with out. rewrite finish_thin, E. destruct (g_finish ne 0 a); reflexivity.
    - reflexivity.
    - unfold g_clear. change (g_sep (lift g)) with (g_sep g). destruct (s_clear c ts (g_sep g)); reflexivity.
  Qed.
  Lemma call_out op g y g1 : g_call ne op g = Ok (y, g1) -> g_out g1 = g_out g.
  Proof.
    destruct op as [x c1 c2|x h c1 c2|ts h f c| | | |v|ts c]; cbn [g_call]; intros E.
    - destruct x; cbn [bind] in E; try discriminate; unfold g_add, g_add_arr, g_add_red in E; destruct (g_add_with ne _ g) as [[b g2]| |] eqn:A; cbn [bind] in E; try discriminate;
        injection E as <- <-; eapply add_out; exact A.
    - destruct x; cbn [bind] in E; try discriminate; unfold g_push, g_push_arr, g_push_red in E; destruct (g_push_with ne _ _ h g) as [[[b rs] g2]| |] eqn:A; cbn [bind] in E; try discriminate;
        injection E as <- <-; eapply push_out; exact A.
    - unfold g_separate in E. destruct (s_separate ne c ts h f (g_sep g)) as [[[b r] s]| |]; cbn [bind] in E; try discriminate.
      destruct (g_aggregate0_ ne _) eqn:A; cbn [bind] in E; try discriminate. injection E as <- <-. apply aggregate0_out in A. exact A.
    - unfold g_pop in E. destruct (g_list g); injection E as <- <-; reflexivity.
    - unfold g_force_pop in E. destruct (s_force_pop ne (g_sep g)) as [[[a|] s]| |]; cbn [bind] in E; try discriminate; [|injection E as <- <-; reflexivity].
      destruct (g_finish ne _ a); cbn [bind] in E; try discriminate. injection E as <- <-. reflexivity.
    - destruct (g_current ne g); cbn [bind] in E; try discriminate. injection E as <- <-. reflexivity.
    - injection E as <- <-. reflexivity.
    - unfold g_clear in E. destruct (s_clear c ts (g_sep g)); cbn [bind] in E; try discriminate. injection E as <- <-. reflexivity.
  Qed.
  Lemma thin_thinned d : thinned out (thin d) d.
  Proof.
    unfold thinned, thin. cbn [ad_info ad_perc ad_data]. split; [reflexivity|]. split; [reflexivity|]. split; [apply reduce_subseq|].
    pose proof (reduce_length out (ad_data d)) as L. cbv zeta in L |- *. destruct L as (L1 & L2 & L3). split; [exact L1|]. split; [|exact L3]. intros A B C. destruct (L2 A B C). lia.
  Qed.
  Lemma thin_out_thinned op y : (forall ts f c, op = GoSeparate ts false f c -> out_handler y = []) -> thinned_call out op (thin_out op y) y.
  Proof.
    intros H. unfold thinned_call, thin_out. cbn [out_bool out_handler out_ptr]. split; [reflexivity|].
    assert (M : Forall2 (thinned out) (map thin (out_handler y)) (out_handler y)).
    { clear H. induction (out_handler y) as [|d l IH]; cbn [map]; [constructor|]. constructor; [apply thin_thinned|exact IH]. }
    split; [|destruct (out_ptr y); [apply thin_thinned|exact I]].
    destruct op as [x c1 c2|x h c1 c2|ts h f c| | | |v|ts c]; auto. destruct h; [reflexivity|]. rewrite (H ts f c eq_refl). constructor.
  Qed.
  Lemma call_quiet op g y g1 : g_call ne op g = Ok (y, g1) -> forall ts f c, op = GoSeparate ts false f c -> out_handler y = [].
  Proof.
    intros E ts f c ->. cbn [g_call] in E. unfold g_separate, s_separate in E. destruct (get_ts _ _ c ts); cbn [bind] in E; try discriminate.
    destruct (negb f && _).
    - cbn [bind] in E. destruct (g_aggregate0_ ne _); cbn [bind] in E; try discriminate. injection E as <- _. reflexivity.
    - destruct (sep_loop ne _ _ _ _ _) as [[[rs r] nx]| |]; cbn [bind] in E; try discriminate.
      destruct (g_aggregate0_ ne _); cbn [bind] in E; try discriminate. injection E as <- _. reflexivity.
  Qed.
  Lemma run_thin ops : forall g xs g', g_out g = O -> g_run ne (lift g) ops = Ok (xs, g') ->
    exists ys g1, g_run ne g ops = Ok (ys, g1) /\ length ys = length xs /\
      forall i op x y, nth_error ops i = Some op -> nth_error xs i = Some x -> nth_error ys i = Some y -> thinned_call out op x y.
  Proof.
    induction ops as [|op ops IH]; intros g xs g' E R; cbn [g_run] in *.
    - injection R as <- <-. eexists _, _. split; [reflexivity|]. split; [reflexivity|]. intros [|i]; discriminate.
    - rewrite call_thin in R by exact E. destruct (g_call ne op g) as [[y g1]| |] eqn:C; cbn [bind] in R |- *; try discriminate.
      destruct (g_run ne (lift g1) ops) as [[xs2 g2]| |] eqn:R2; cbn [bind] in R; try discriminate. injection R as <- <-.
      assert (E1 : g_out g1 = O) by (rewrite (call_out _ _ _ _ C); exact E).
      destruct (IH _ _ _ E1 R2) as (ys & g3 & -> & L & H). cbn [bind]. eexists _, _. split; [reflexivity|]. split; [cbn; congruence|].
      intros [|i] op0 x0 y0; cbn [nth_error]; [|apply H]. intros X1 X2 X3. injection X1 as <-. injection X2 as <-. injection X3 as <-.
      apply thin_out_thinned. eapply call_quiet; exact C.
  Qed.
End Thin.

(** Every history: with outgoing_reduced_size 0 the same calls have the same results, and the records differ by the values left out. *)
Theorem C23_program : forall ne o c rnd ts g0 ops xs g, agg_new o c rnd ts = Ok g0 -> g_run ne g0 ops = Ok (xs, g) ->
  exists g1 fulls g', agg_new (mk_aopts (ao_sep o) 0) c rnd ts = Ok g1 /\ g_run ne g1 ops = Ok (fulls, g') /\ length fulls = length xs /\
    forall i op x full, nth_error ops i = Some op -> nth_error xs i = Some x -> nth_error fulls i = Some full -> thinned_call (ao_out o) op x full.
Proof.
  intros ne o c rnd ts g0 ops xs g N R. unfold agg_new in *. cbn [ao_sep ao_out]. destruct (sep_new (ao_sep o) c rnd ts) as [s| |]; cbn [bind] in *; try discriminate.
  injection N as <-. destruct (run_thin ne (ao_out o) ops (mk_agg s 0 true [] true) xs g eq_refl R) as (ys & g1 & R1 & L & H).
  eexists _, _, _. split; [reflexivity|]. split; [exact R1|]. auto.
Qed.
Print Assumptions C23_program.
(** Outgoing size 4: of ten values five are left, of six four, of four all; without it all of them. *)
Definition thin_o : aopts := mk_aopts (mk_sopts (mk_ropts 256 1 Sorting Sorting) 10 RSeconds 0) 4.
Example C23_program_witness : let sizes := map (fun x => map (fun d => length (ad_data d)) (match out_ptr x with Some d => [d] | None => [] end ++ out_handler x)) in
  let ops := [GoAdd (SmArr 105 [1; 2; 3; 4; 5; 6; 7; 8; 9; 10] 10) 0 0; GoForcePop; GoAdd (SmArr 106 [1; 2; 3; 4; 5; 6] 6) 0 0; GoCurrent;
    GoPush (SmArr 111 [1; 2; 3; 4] 4) true 0 0; GoForcePop] in
  exists g0 xs g g1 fulls g', agg_new thin_o 0 0 108 = Ok g0 /\ g_run ne_sort g0 ops = Ok (xs, g) /\ sizes xs = [[]; [5]; []; [4]; [4]; [4]]%nat /\
    agg_new (mk_aopts (ao_sep thin_o) 0) 0 0 108 = Ok g1 /\ g_run ne_sort g1 ops = Ok (fulls, g') /\ sizes fulls = [[]; [10]; []; [6]; [6]; [4]]%nat.
Proof. cbv zeta. eexists _, _, _, _, _, _. do 5 (split; [vm_compute; reflexivity|]). vm_compute. reflexivity. Qed.
