(** Property C98: pushers and clear() when threads share an aggregator (wrtstat/aggregator/aggregator_mt.cpp, basic_aggregator.hpp). *)
From Coq Require Import ZArith List Bool Arith Lia.
From Verif Require Import Base SortFacts ModelTypes ModelReducer SpecReducer ModelSeparator SpecSeparator ModelAggregator SpecAggregator
  PropsAggregator ModelClearMt SpecClearMt ClearMtProofs.
Import ListNotations.

(** Any number of threads, any calls, any schedule.  What was done to the aggregator is one sequence of calls that, made one after the
    other, give the same answers and the same aggregator.  Every thread makes one call after the other; a call of a member function
    has exactly one effect, its own; a call of a pusher has its own or none. *)
Theorem C98_one_order : forall ne g n sched evs s, cm_run ne (cm_new g n) sched = Ok (evs, s) ->
  g_run ne g (map fst (done_to evs)) = Ok (map snd (done_to evs), cm_g s) /\
  forall t, exists cs cur, mine t evs = concat cs ++ cur /\ Forall (one_call t (pushers_made evs)) cs /\
    (cur = [] \/ exists rest, rest <> [] /\ one_call t (pushers_made evs) (cur ++ rest)).
Proof. exact one_order. Qed.
Print Assumptions C98_one_order.

(** As long as nobody clears a new aggregator, every call of a pusher has its effect: nothing, or the push, is the next thing its
    thread does. *)
Theorem C98_live : forall ne g n sched evs s a t p x c1 c2 b,
  g_id g = true -> cm_run ne (cm_new g n) sched = Ok (evs, s) -> ~ cleared evs ->
  evs = a ++ VInv t (CmPush p x c1 c2) :: b -> (p < length (pushers_made a))%nat ->
  mine t b = [] \/ exists h o r, nth_error (pushers_made a) p = Some h /\ mine t b = VDid t (GoPush x h c1 c2) o :: r.
Proof. exact live. Qed.
Print Assumptions C98_live.
Theorem C98_new : forall o c rnd ts g, agg_new o c rnd ts = Ok g -> g_id g = true.
Proof.
  intros o c rnd ts g E. unfold agg_new in E. destruct (sep_new (ao_sep o) c rnd ts) as [s| |]; cbn in E; try discriminate. now injection E as <-.
Qed.
Print Assumptions C98_new.

(** Once clear() has been made and then, at some moment, nobody is inside a pusher, no pusher ever has an effect again. *)
Theorem C98_quiet : forall ne g n sd1 evs1 s1 sd2 evs2 s2,
  cm_run ne (cm_new g n) sd1 = Ok (evs1, s1) -> cleared evs1 -> nobody_pushing evs1 -> cm_run ne s1 sd2 = Ok (evs2, s2) ->
  forall a t op o b p, evs2 = a ++ VDid t op o :: b -> ~ inside_pusher t p (evs1 ++ a).
Proof. exact quiet. Qed.
Print Assumptions C98_quiet.

(** A pusher made after clear() never has an effect, whatever else goes on. *)
Theorem C98_made_after : forall ne g n sched evs s a t h b t' op o c,
  cm_run ne (cm_new g n) sched = Ok (evs, s) -> evs = (a ++ VMade t h :: b) ++ VDid t' op o :: c -> cleared a ->
  ~ inside_pusher t' (length (pushers_made a)) (a ++ VMade t h :: b).
Proof. exact made_after. Qed.
Print Assumptions C98_made_after.

(** One call of pusher 0 by thread 1: what is pushed, and the answer. *)
Definition pushed_by_1 (h : bool) (i : sample * Z * Z * sout) : list cmev :=
  let '(x, c1, c2, o) := i in [VInv 1 (CmPush 0 x c1 c2); VDid 1 (GoPush x h c1 c2) o; VRet 1].
(** The expectation that a pusher made before clear() does nothing once clear() has returned is false, and so it is for ever: while
    one thread is inside the pusher, another may make clear(), return from it, and then record through the pusher whatever it likes:
    everything that could be pushed directly to the aggregator after clear(), in any number. *)
Theorem C98_outlives_refuted : forall ne g ts c g1 h x0 d1 d2 l outs g2,
  g_id g = true -> g_clear c ts g = Ok g1 ->
  g_run ne g1 (map (fun '(x, c1, c2) => GoPush x h c1 c2) l) = Ok (outs, g2) ->
  exists sched s, cm_g s = g2 /\ cm_run ne (cm_new g 2) sched =
    Ok ([VInv 0 (CmMake h); VMade 0 h; VRet 0; VInv 0 (CmPush 0 x0 d1 d2);
         VInv 1 (CmCall (GoClear ts c)); VDid 1 (GoClear ts c) (mk_sout None [] None); VRet 1] ++
        flat_map (pushed_by_1 h) (combine l outs), s).
Proof.
  intros ne g ts c g1 h x0 d1 d2 l outs g2 I0 C R.
  destruct (outlives ne g ts c g1 h x0 d1 d2 l outs g2 I0 C) as (sched & s & A & B).
  - erewrite map_ext; [exact R|]. now intros [[x c1] c2].
  - exists sched, s. split; [exact A|]. rewrite B. do 3 f_equal. apply flat_map_ext. now intros [[[x c1] c2] o].
Qed.
Print Assumptions C98_outlives_refuted.

Local Open Scope Z_scope.
(** Two values recorded through the pusher by the thread that has just cleared the aggregator; the record of the window, forced out, has
    both. *)
Definition cx_l : list (sample * Z * Z) := [(SmScalar 103 7 1, 0, 0); (SmScalar 104 9 2, 0, 0)].
Example C98_outlives_witness : exists g1 outs g2 d, g_id gx_g0 = true /\ g_clear 0 101 gx_g0 = Ok g1 /\
  g_run ne_rev g1 (map (fun '(x, c1, c2) => GoPush x true c1 c2) cx_l) = Ok (outs, g2) /\
  map out_bool outs = [Some true; Some true] /\
  g_force_pop ne_rev g2 = Ok (Some d, match g_force_pop ne_rev g2 with Ok (_, g) => g | _ => g2 end) /\
  ri_count (ad_info d) = 3 /\ ad_data d = [7; 9].
Proof. eexists _, _, _, _. do 5 (split; [vm_compute; reflexivity|]). vm_compute. auto. Qed.

(** Two threads: both push through a pusher; thread 1 clears while thread 0 is inside; thread 0 gets its value in; then nobody is
    inside, and the pusher is dead.  The pusher thread 1 makes then is dead, too. *)
Definition cx_p (v : Z) : cmcall := CmPush 0 (SmScalar 103 v 1) 0 0.
Definition cx_q : cmcall := CmPush 1 (SmScalar 103 4 1) 0 0.
Definition cx_clear : cmcall := CmCall (GoClear 101 0).
Definition cx_s1 : list (nat * cmcall) :=
  [(0, CmMake true); (0, cx_clear); (0, cx_clear); (1, cx_p 1); (0, cx_p 2); (1, cx_p 0); (0, cx_p 0); (1, cx_p 0); (1, cx_p 0);
   (1, cx_clear); (1, cx_clear); (1, cx_clear); (0, cx_p 0); (0, cx_p 0)]%nat.
Definition cx_s2 : list (nat * cmcall) :=
  [(0, cx_p 3); (1, CmMake false); (1, cx_p 0); (0, cx_p 0); (1, cx_p 0); (0, cx_p 0); (1, cx_q); (1, cx_q); (1, cx_q); (0, CmCall GoForcePop);
   (0, CmCall GoPop)]%nat.
Definition cx_r1 : list cmev * cmstate := match cm_run ne_rev (cm_new gx_g0 2) cx_s1 with Ok r => r | _ => ([], cm_new gx_g0 0) end.
Definition cx_r2 : list cmev * cmstate := match cm_run ne_rev (snd cx_r1) cx_s2 with Ok r => r | _ => ([], cm_new gx_g0 0) end.
(** Begins, takes effect, makes a pusher, returns *)
Definition cx_kind (e : cmev) : nat * nat :=
  match e with VInv t _ => (t, 0) | VDid t _ _ => (t, 1) | VMade t _ => (t, 2) | VRet t => (t, 3) end%nat.
Example C98_witness_runs : cm_run ne_rev (cm_new gx_g0 2) cx_s1 = Ok cx_r1 /\ cm_run ne_rev (snd cx_r1) cx_s2 = Ok cx_r2 /\
  map cx_kind (fst cx_r1) =
    [(0, 0); (0, 2); (0, 3); (1, 0); (0, 0); (1, 1); (1, 3); (1, 0); (1, 1); (1, 3); (0, 1); (0, 3)]%nat /\
  map cx_kind (fst cx_r2) =
    [(0, 0); (1, 0); (1, 2); (1, 3); (0, 3); (1, 0); (1, 3); (0, 0); (0, 1)]%nat /\
  map fst (done_to (fst cx_r1)) = [GoPush (SmScalar 103 1 1) true 0 0; GoClear 101 0; GoPush (SmScalar 103 2 1) true 0 0].
Proof. split; [vm_compute; reflexivity|]. split; [vm_compute; reflexivity|]. split; [vm_compute; reflexivity|]. split; [vm_compute; reflexivity|]. vm_compute. reflexivity. Qed.
Example C98_witness_quiet : cleared (fst cx_r1) /\ nobody_pushing (fst cx_r1).
Proof.
  split.
  - exists 101, 0. replace (map fst (done_to (fst cx_r1))) with [GoPush (SmScalar 103 1 1) true 0 0; GoClear 101 0; GoPush (SmScalar 103 2 1) true 0 0]
      by (vm_compute; reflexivity). right. now left.
  - intros t p (l & x & c1 & c2 & r & E & N).
    assert (L : mine t (fst cx_r1) = [] \/ exists l', mine t (fst cx_r1) = l' ++ [VRet t]).
    { destruct t as [|[|t]].
      - right. eexists (removelast (mine 0 (fst cx_r1))). vm_compute. reflexivity.
      - right. eexists (removelast (mine 1 (fst cx_r1))). vm_compute. reflexivity.
      - left. vm_compute. reflexivity. }
    destruct L as [L|[l' L]]; rewrite L in E; [destruct l; discriminate|].
    destruct (ListFacts.list_snoc r) as [->|(r' & e & ->)].
    + apply app_inj_tail in E. destruct E as [_ E]. discriminate.
    + change (VInv t (CmPush p x c1 c2) :: r' ++ [e]) with ((VInv t (CmPush p x c1 c2) :: r') ++ [e]) in E. rewrite app_assoc in E.
      apply app_inj_tail in E. destruct E as [_ <-]. apply N. apply in_or_app. right. now left.
Qed.
(** C98_live applies to the first calls of the pusher. *)
Example C98_witness_live : exists a b s, cm_run ne_rev (cm_new gx_g0 2) (firstn 9 cx_s1) = Ok (a ++ VInv 1 (cx_p 1) :: b, s) /\
  (0 < length (pushers_made a))%nat /\ map fst (done_to (a ++ VInv 1 (cx_p 1) :: b)) = [GoPush (SmScalar 103 1 1) true 0 0] /\ mine 1 b <> [].
Proof.
  exists (firstn 3 (fst cx_r1)). eexists _, _. split; [vm_compute; reflexivity|]. split; [vm_compute; lia|]. split; [vm_compute; reflexivity|].
  vm_compute. discriminate.
Qed.
(** C98_made_after: thread 1 made its pusher after clear() and called it without effect, before something else was done. *)
Example C98_witness_made : exists a b c op o s, cm_run ne_rev (cm_new gx_g0 2) (cx_s1 ++ cx_s2) = Ok ((a ++ VMade 1 false :: b) ++ VDid 0 op o :: c, s) /\
  length (pushers_made a) = 1%nat /\ In (GoClear 101 0) (map fst (done_to a)) /\ In (VInv 1 cx_q) b.
Proof.
  exists (firstn 14 (fst cx_r1 ++ fst cx_r2)), (firstn 5 (skipn 15 (fst cx_r1 ++ fst cx_r2))). eexists _, _, _, _. split; [vm_compute; reflexivity|].
  split; [vm_compute; reflexivity|]. split; [vm_compute; auto|vm_compute; auto].
Qed.
