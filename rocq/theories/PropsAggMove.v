(** C101: moving an aggregator. *)
From Coq Require Import ZArith List Bool Arith Lia.
From Verif Require Import Base ModelTypes ModelAvg ModelReducer SpecReducer ListFacts SortFacts ModelSeparator SpecSeparator ModelAggregator SpecAggregator AggFinal
  PropsAggregator ModelAggMove SpecAggMove AggMoveProofs.
Import ListNotations.

(** An object that was not moved from answers as if there were no moves: its calls, those before the move through the object
    it was made from included, get the answers they would get from one aggregator. *)
Theorem C101_moved_to : forall ne ops outs s i y, am_run ne am_start ops = Ok (outs, s) -> story_at i (stories_of ops outs) = Some y ->
  sy_whole y = true -> as_if_unmoved ne y.
Proof.
  intros ne ops outs s i y R Y T. destruct (run_inv ne _ _ _ R) as [_ (V & _)]. apply at_story in Y.
  destruct (F2_nth' _ _ _ _ _ V Y) as (v & Hv & O). destruct v as [v|]; [|contradiction]. destruct O as (_ & _ & O). specialize (O T).
  unfold whole_run in O. unfold as_if_unmoved. destruct (sy_born y) as [[[o c] rnd] ts]. destruct O as (g0 & os & N & G & S). exists g0, os, (av_g v). auto.
Qed.
Print Assumptions C101_moved_to.

(** An aggregator is never in two objects. *)
Theorem C101_one_heir : forall ne ops outs s i j y z, am_run ne am_start ops = Ok (outs, s) ->
  story_at i (stories_of ops outs) = Some y -> story_at j (stories_of ops outs) = Some z ->
  sy_whole y = true -> sy_whole z = true -> sy_first y = sy_first z -> i = j.
Proof. intros ne ops outs s i j y z R. destruct (run_inv ne _ _ _ R) as [_ (_ & _ & _ & W)]. apply W. Qed.
Print Assumptions C101_one_heir.

(** Exactly when a pusher works: its object exists, and the aggregator that was in its object when the pusher was made is
    somewhere, not cleared since.  It then pushes into its object, wherever the aggregator went. *)
Theorem C101_pusher : forall ne ops outs s p x c1 c2 r s', am_run ne am_start ops = Ok (outs, s) -> am_do ne (APush p x c1 c2) s = Ok (r, s') ->
  r <> ADead <-> exists i k h y j z, nth_error (ss_push (stories_of ops outs)) p = Some (i, Some k, h) /\
    story_at i (stories_of ops outs) = Some y /\ story_at j (stories_of ops outs) = Some z /\ mark z = Some k.
Proof.
  intros ne ops outs s p x c1 c2 r s' R D. destruct (run_inv ne _ _ _ R) as [_ I]. pose proof I as (V & P & _). cbn [am_do] in D.
  destruct (nth_error (pr_push s) p) as [q|] eqn:Q; [|discriminate]. rewrite P, (map_nth_error _ _ _ Q).
  destruct (nth_error (pr_vars s) (ap_var q)) as [v|] eqn:Hv.
  - destruct (F2_nth _ _ _ _ _ V Hv) as (y & Hy & O). destruct v as [v|], y as [y|]; try contradiction.
    + destruct (ap_tok q) as [k|].
      * destruct (tok_alive k s) eqn:T.
        -- destruct (g_call ne (GoPush x (ap_h q) c1 c2) (av_g v)) as [[o g]| |]; cbn [bind] in D; try discriminate. injection D as <- <-. split; [|discriminate]. intros _.
           apply (tok_alive_mark ne _ _ _ I) in T. destruct T as (j & z & Hz & M). exists (ap_var q), k, (ap_h q), y, j, z. split; [reflexivity|]. split; [apply at_story; exact Hy|]. auto.
        -- injection D as <- <-. split; [congruence|]. intros (i & k' & h & y' & j & z & E & _ & Hz & M). injection E as <- <- <-.
           exfalso. assert (tok_alive k s = true) by (apply (tok_alive_mark ne _ _ _ I); eauto). congruence.
      * injection D as <- <-. split; [congruence|]. intros (i & k' & h & y' & j & z & E & _). discriminate.
    + injection D as <- <-. split; [congruence|]. intros (i & k' & h & y' & j & z & E & Y & _). injection E as <- _ _. apply at_story in Y. congruence.
  - injection D as <- <-. split; [congruence|]. intros (i & k' & h & y' & j & z & E & Y & _). injection E as <- _ _. apply at_story in Y.
    destruct (F2_nth' _ _ _ _ _ V Y) as (v & Hv' & _). congruence.
Qed.
Print Assumptions C101_pusher.

(** What the object that was moved from does next: it has no finished windows; of the open window it shows, and force_pop
    hands over, a record with the ts, count, min, max and avg of the aggregator that was moved, without its data.
    If nothing was recorded in the open window, it shows nothing. *)
Definition shadow (a b : option adata) : Prop :=
  match a, b with
  | None, None => True
  | Some d, Some e =>
      ri_ts (ad_info e) = ri_ts (ad_info d) /\ ri_count (ad_info e) = ri_count (ad_info d) /\ ri_min (ad_info e) = ri_min (ad_info d) /\
      ri_max (ad_info e) = ri_max (ad_info d) /\ ri_avg (ad_info e) = ri_avg (ad_info d) /\ ad_data e = [] /\ ad_perc e = perc0
  | _, _ => False
  end.
Lemma reduce_keeps : forall ne r r1, r_reduce ne r = Ok r1 -> r_total r1 = r_total r /\ r_min r1 = r_min r /\ r_max r1 = r_max r /\ r_avg r1 = r_avg r.
Proof.
  intros ne r r1 H. unfold r_reduce in H. destruct (r_data r) as [|x d] eqn:E; [injection H as <-; auto|].
  destruct (length _ =? 1)%nat; [injection H as <-; auto|].
  destruct (reduce_loop _ _ _ _ _ _ _); cbn [bind] in H; try discriminate. injection H as <-. auto.
Qed.
Lemma finish_info : forall ne out a d, g_finish ne out a = Ok d -> ad_info d = ad_info a.
Proof.
  intros ne out a d H. unfold g_finish in H. destruct (g_aggregate2_ ne a) as [x| |] eqn:E; cbn [bind] in H; try discriminate. injection H as <-. cbn [ad_info].
  unfold g_aggregate2_ in E. destruct (length (ad_data a)); [injection E as <-; reflexivity|].
  repeat match type of E with context [bind ?m _] => destruct m as [[[? ?] ?]| |]; cbn [bind] in E; try discriminate end.
  destruct (nth_error _ _); [|discriminate]. injection E as <-. reflexivity.
Qed.
Lemma put_back : forall A (l : list A) i x, nth_error l i = Some x -> set_nth i x l = l.
Proof. induction l as [|y l IH]; intros [|i] x H; cbn in *; try discriminate; [congruence|]. f_equal. apply IH. exact H. Qed.
Lemma left_current : forall ne g a, g_current ne g = Ok a -> exists b, g_current ne (agg_left g) = Ok b /\ shadow a b /\
  exists g1, g_force_pop ne (agg_left g) = Ok (b, g1).
Proof.
  intros ne g a H. unfold g_current, s_get_current, r_get_reduced, g_force_pop, s_force_pop in *. cbn [agg_left g_sep sep_left s_red s_next s_step s_list s_pop g_out] in *.
  unfold r_detach in *. cbn [r_clone red_left r_empty] in *.
  destruct (r_empty (s_red (g_sep g))) eqn:E; cbn [bind] in H.
  - injection H as <-. exists None. split; [reflexivity|]. split; [exact I|]. eexists. reflexivity.
  - destruct (r_reduce ne (r_clone (s_red (g_sep g)))) as [r1| |] eqn:R; cbn [bind] in H; try discriminate.
    destruct (reduce_keeps _ _ _ R) as (K1 & K2 & K3 & K4). cbn [r_clone r_total r_min r_max r_avg] in *. rewrite K1, K2, K3, K4 in H.
    cbn [r_reduce r_clone red_left r_data bind r_avg r_total r_lossy r_min r_max].
    destruct (f64_to_i64 (r_avg (s_red (g_sep g)))) as [av| |]; cbn [bind] in H |- *; try discriminate.
    destruct (chk (s_next (g_sep g) - s_step (g_sep g))) as [t| |]; cbn [bind] in H |- *; try discriminate.
    assert (Ee : g_finish ne (g_out g) (ad_set_ts t (mk_adata (mk_rinfo 0 (r_total (s_red (g_sep g))) (r_lossy (s_red (g_sep g))) (r_min (s_red (g_sep g))) (r_max (s_red (g_sep g))) av) perc0 []))
      = Ok (mk_adata (mk_rinfo t (r_total (s_red (g_sep g))) (r_lossy (s_red (g_sep g))) (r_min (s_red (g_sep g))) (r_max (s_red (g_sep g))) av) perc0 [])).
    { unfold g_finish, g_aggregate2_. cbn [ad_set_ts ad_data ad_info ad_perc length bind]. unfold g_reduce_. cbn [length]. rewrite orb_true_r. reflexivity. }
    rewrite !Ee. cbn [bind]. eexists. split; [reflexivity|]. split; [|eexists; reflexivity].
    destruct (g_finish ne (g_out g) _) as [d| |] eqn:G in H; cbn [bind] in H; try discriminate. injection H as <-.
    apply finish_info in G. cbn [shadow ad_info ad_data ad_perc]. rewrite G. cbn. auto 10.
Qed.
Theorem C101_moved_from : forall ne s j v r s1, av_at j s = Ok v -> am_do ne (AMove j) s = Ok (r, s1) ->
  am_do ne (ACall j GoPop) s1 = Ok (AAns (mk_sout None [] None), s1) /\
  forall o s2, am_do ne (ACall j GoCurrent) s = Ok (AAns o, s2) ->
    exists b s3 s4, am_do ne (ACall j GoCurrent) s1 = Ok (AAns (mk_sout None [] b), s3) /\
      am_do ne (ACall j GoForcePop) s1 = Ok (AAns (mk_sout None [] b), s4) /\ shadow (out_ptr o) b.
Proof.
  intros ne s j v r s1 A D. cbn [am_do] in D. rewrite A in D. cbn [bind] in D. injection D as <- <-.
  assert (A1 : av_at j (mk_aprog (set_nth j (Some (mk_avar (agg_left (av_g v)) None)) (pr_vars s) ++ [Some v]) (pr_push s)) = Ok (mk_avar (agg_left (av_g v)) None)).
  { unfold av_at in *. cbn [pr_vars]. destruct (nth_error (pr_vars s) j) as [[w|]|] eqn:E; try discriminate.
    assert (L : j < length (pr_vars s)) by (apply nth_error_Some; congruence).
    rewrite nth_error_app1 by (rewrite set_nth_length; exact L). rewrite nth_error_set_nth_eq by exact L. reflexivity. }
  split.
  - cbn [am_do]. rewrite A1. cbn [bind av_g g_call g_pop agg_left g_list]. unfold av_after. cbn [g_id av_tok]. f_equal. f_equal. f_equal.
    unfold av_at in *. cbn [pr_vars] in *. apply put_back.
    destruct (nth_error (set_nth j (Some (mk_avar (agg_left (av_g v)) None)) (pr_vars s) ++ [Some v]) j) as [[w|]|]; try discriminate. injection A1 as ->. reflexivity.
  - intros o s2 C. cbn [am_do] in C. rewrite A in C. cbn [bind g_call] in C.
    destruct (g_current ne (av_g v)) as [a| |] eqn:G; cbn [bind] in C; try discriminate. injection C as <- <-.
    destruct (left_current _ _ _ G) as (b & B1 & B2 & g1 & B3). cbn [am_do]. rewrite A1. cbn [bind av_g g_call]. rewrite B1, B3. cbn [bind].
    eexists b, _, _. split; [reflexivity|]. split; [reflexivity|exact B2].
Qed.
Print Assumptions C101_moved_from.

(** clear() makes it as good as new: the state is the one clear() would have left in the original. *)
Theorem C101_clear : forall ne s j v r s1 v1 ts c, av_at j s = Ok v -> am_do ne (AMove j) s = Ok (r, s1) -> av_at j s1 = Ok v1 ->
  g_clear c ts (av_g v1) = g_clear c ts (av_g v).
Proof.
  intros ne s j v r s1 v1 ts c A D A1. cbn [am_do] in D. rewrite A in D. cbn [bind] in D. injection D as <- <-.
  unfold av_at in *. cbn [pr_vars] in *. destruct (nth_error (pr_vars s) j) as [[w|]|] eqn:E; try discriminate. injection A as ->.
  assert (L : j < length (pr_vars s)) by (apply nth_error_Some; congruence).
  rewrite nth_error_app1 in A1 by (rewrite set_nth_length; exact L). rewrite nth_error_set_nth_eq in A1 by exact L. injection A1 as <-. reflexivity.
Qed.
Print Assumptions C101_clear.

(** That a measurement is handed over once is false after a move: *)
Theorem C101_counted_twice_refuted : exists outs s a b,
  am_run ne_rev am_start [ANew gx_o 0 0 108; ACall 0 (GoAdd (SmArr 105 [1; 2; 9] 3) 0 0); AMove 0; ACall 0 GoForcePop; ACall 1 GoForcePop]%Z = Ok (outs, s) /\
  outs = [ANone; AAns (mk_sout (Some true) [] None); ANone; AAns (mk_sout None [] (Some a)); AAns (mk_sout None [] (Some b))] /\
  ri_count (ad_info a) = 3%Z /\ ad_data a = [] /\ ri_count (ad_info b) = 3%Z /\ ad_data b = [1; 2; 9]%Z.
Proof. eexists _, _, _, _. split; [vm_compute; reflexivity|]. split; [reflexivity|]. auto. Qed.
Print Assumptions C101_counted_twice_refuted.

(** That pushers follow the aggregator is false: they push into the object they were made from, nothing reaches the new one, *)
Theorem C101_pushers_stay_refuted : exists outs s a,
  am_run ne_rev am_start [ANew gx_o 0 0 108; AMake 0 true; AMove 0; APush 0 (SmScalar 103 7 1) 0 0; ACall 1 GoForcePop; ACall 0 GoForcePop]%Z = Ok (outs, s) /\
  outs = [ANone; ANone; ANone; ARecs []; AAns (mk_sout None [] None); AAns (mk_sout None [] (Some a))] /\ ad_data a = [7]%Z.
Proof. eexists _, _, _. split; [vm_compute; reflexivity|]. split; reflexivity. Qed.
Print Assumptions C101_pushers_stay_refuted.
(** and they stop, without notice, when the new one is destroyed or cleared, although their own object was not. *)
Theorem C101_pushers_stop_refuted : exists outs s outs' s',
  am_run ne_rev am_start [ANew gx_o 0 0 108; AMake 0 true; AMove 0; ADrop 1; APush 0 (SmScalar 103 7 1) 0 0; ACall 0 GoForcePop]%Z = Ok (outs, s) /\
  outs = [ANone; ANone; ANone; ANone; ADead; AAns (mk_sout None [] None)] /\
  am_run ne_rev am_start [ANew gx_o 0 0 108; AMake 0 true; AMove 0; ACall 1 (GoClear 120 0); APush 0 (SmScalar 103 7 1) 0 0; ACall 0 GoForcePop]%Z = Ok (outs', s') /\
  outs' = [ANone; ANone; ANone; AAns (mk_sout None [] None); ADead; AAns (mk_sout None [] None)].
Proof. eexists _, _, _, _. split; [vm_compute; reflexivity|]. split; [reflexivity|]. split; [vm_compute; reflexivity|reflexivity]. Qed.
Print Assumptions C101_pushers_stop_refuted.

(** An aggregator that is used, moved twice and used in between; the last object has the whole story, the second was moved
    from, the first was used and cleared. *)
Definition amx : list aop :=
  [ANew gx_o 0 0 108; AMake 0 true; ACall 0 (GoAdd (SmScalar 103 7 1) 0 0); AMove 0; ACall 1 (GoPush (SmScalar 117 9 2) true 0 0);
   APush 0 (SmScalar 119 5 1) 0 0; AMove 1; ACall 2 GoForcePop; ACall 1 GoPop; ACall 0 (GoClear 130 0); ACall 0 GoCurrent]%Z.
Example C101_witness : exists outs s y y0,
  am_run ne_rev am_start amx = Ok (outs, s) /\
  story_at 2 (stories_of amx outs) = Some y /\ sy_whole y = true /\ sy_first y = 0 /\ length (sy_calls y) = 3 /\
  story_at 0 (stories_of amx outs) = Some y0 /\ sy_whole y0 = false /\
  map (fun r => match r with AAns o => map (fun d => (ri_count (ad_info d), ad_data d)) (out_handler o ++ match out_ptr o with Some d => [d] | None => [] end) | ARecs l => map (fun d => (ri_count (ad_info d), ad_data d)) l | _ => [] end) outs =
    [[]; []; []; []; [(1, [7])]; [(1, [])]; []; [(2, [9])]; []; []; []]%Z.
Proof. eexists _, _, _, _. split; [vm_compute; reflexivity|]. split; [vm_compute; reflexivity|]. split; [reflexivity|]. split; [reflexivity|]. split; [reflexivity|]. split; [vm_compute; reflexivity|]. split; [reflexivity|]. vm_compute. reflexivity. Qed.
