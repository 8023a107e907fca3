(** Property C95: windows and order when threads share a registry (wrtstat/aggregator/aggregator_registry.cpp,
    wrtstat/aggregator/basic_aggregator.hpp). *)
From Coq Require Import ZArith List Bool Lia Arith Ascii Permutation Sorted.
From Verif Require Import Base SortFacts ModelTypes ModelReducer SpecReducer ModelSeparator SpecSeparator ModelAggregator SpecAggregator
  ModelRegistry SpecRegistry RegFinal AggRun AggFinal ModelConc SpecConc ConcInv ConcFinal PropsReducer PropsSeparator PropsAggregator PropsRegistry PropsConc PropsLives.
Import ListNotations.
Local Open Scope Z_scope.

(** Whatever the threads do (clear() apart) and however they are scheduled: each record of an aggregator, in whoever's hands it is,
    is the report of a non-empty group of samples that lie in the window the record names; no sample is in two groups; every recorded
    sample is in a group or in the open window. *)
Theorem C95_windows : forall ne, nth_element_ok ne -> forall o, let so := ao_sep (rgo_agg o) in 0 < so_step so ->
  forall threads sched evs c s g,
  Forall (fun q => k_no_clear (snd q)) sched -> Forall (fun q => kopP gop_typed (snd q)) sched ->
  Forall (fun q => kopP (gcoherent (so_step so) (so_res so)) (snd q)) sched ->
  k_run ne (k_new o threads) sched = Ok (evs, c) -> exists_obj c s g ->
  exists e now g0 pre pouts, created_in e now evs /\ agg_new (rgo_agg o) (ce_clock e) (ce_rnd e) now = Ok g0 /\ creation e pre /\
    let ops := pre ++ map fst (calls s evs) in
    let outs := pouts ++ map snd (calls s evs) in
    g_run ne g0 ops = Ok (outs, g) /\
    exists (groups : list (Z * list (Z * rop))) (opn : list (Z * rop)),
      Forall2 (fun q d => reported_as ne (so_red so) (fst q) (map snd (snd q)) d) groups
        (flat_map out_handler outs ++ gpopped ops (map out_ptr outs) ++ g_list g ++ s_list (g_sep g)) /\
      Permutation (flat_map snd groups ++ opn) (recorded (so_step so) (so_res so) (g_enabled g0) ops (map out_bool outs)) /\
      Forall (fun q => snd q <> [] /\ Forall (fun p => window_of (agg_label g0) (so_step so) (fst p) = fst q) (snd q)) groups /\
      Forall (fun p => window_of (agg_label g0) (so_step so) (fst p) = agg_label g) opn.
Proof.
  intros ne NE o so HS threads sched evs c s g F1 F2 F3 E EX.
  pose (Q := fun op => (gop_typed op /\ gnot_clear op) /\ gcoherent (so_step so) (so_res so) op).
  assert (FQ : Forall (fun q => kopP Q (snd q)) sched).
  { rewrite Forall_forall in F1, F2, F3 |- *. intros q IN. apply kopP_and; [apply kopP_and; auto|auto]. apply no_clear_kopP. auto. }
  destruct (obj_ops ne Q o threads sched evs c s g) as (e & now & g0 & pre & pouts & Z & A & B & C & T); auto; try (intros; unfold Q; simpl; auto; fail).
  exists e, now, g0, pre, pouts. split; auto. split; auto. split; auto. split; auto.
  eapply (C83_aggregator_windows ne NE (rgo_agg o) HS); eauto; [eapply gnew_idle; eauto| | |];
    (eapply Forall_impl; [|exact T]); intros op X; apply X.
Qed.
Print Assumptions C95_windows.

(** If moreover nobody calls force_pop or force_pop_all: what the handlers of the aggregator received, in whichever threads they ran, is
    in strictly increasing order of windows; so is what was popped, in the order of the pops, followed by what waits in the queue; and there is exactly
    one record for each non-empty window that was closed, reporting all the samples recorded in it. *)
Theorem C95_in_order : forall ne, nth_element_ok ne -> forall o, let so := ao_sep (rgo_agg o) in 0 < so_step so ->
  forall threads sched evs c s g,
  Forall (fun q => kopP gregular (snd q)) sched -> Forall (fun q => kopP gop_typed (snd q)) sched ->
  Forall (fun q => kopP (gcoherent (so_step so) (so_res so)) (snd q)) sched ->
  k_run ne (k_new o threads) sched = Ok (evs, c) -> exists_obj c s g ->
  exists e now g0 pre pouts, created_in e now evs /\ agg_new (rgo_agg o) (ce_clock e) (ce_rnd e) now = Ok g0 /\ creation e pre /\
    let ops := pre ++ map fst (calls s evs) in
    let outs := pouts ++ map snd (calls s evs) in
    g_run ne g0 ops = Ok (outs, g) /\
    let acc := recorded (so_step so) (so_res so) (g_enabled g0) ops (map out_bool outs) in
    let hs := flat_map out_handler outs in
    let ps := gpopped ops (map out_ptr outs) in
    StronglySorted Z.lt (map ad_ts hs) /\ StronglySorted Z.lt (map ad_ts (ps ++ g_list g)) /\
    exists closed recs,
      StronglySorted Z.lt (map fst closed) /\
      (forall w gr, In (w, gr) closed <-> gr = ops_in (agg_label g0) (so_step so) w acc /\ gr <> [] /\ w < agg_label g) /\
      Forall2 (fun q d => reported_as ne (so_red so) (fst q) (snd q) d) closed recs /\
      Permutation recs (hs ++ ps ++ g_list g).
Proof.
  intros ne NE o so HS threads sched evs c s g F1 F2 F3 E EX.
  pose (Q := fun op => (gop_typed op /\ gregular op) /\ gcoherent (so_step so) (so_res so) op).
  assert (FQ : Forall (fun q => kopP Q (snd q)) sched).
  { rewrite Forall_forall in F1, F2, F3 |- *. intros q IN. apply kopP_and; [apply kopP_and; auto|auto]. }
  destruct (obj_ops ne Q o threads sched evs c s g) as (e & now & g0 & pre & pouts & Z & A & B & C & T); auto; try (intros; unfold Q; simpl; auto; fail).
  exists e, now, g0, pre, pouts. split; auto. split; auto. split; auto. split; auto.
  eapply (C14_aggregator_grouping ne NE (rgo_agg o)); eauto; [eapply gnew_idle; eauto| | |];
    (eapply Forall_impl; [|exact T]); intros op X; apply X.
Qed.
Print Assumptions C95_in_order.

(** Three windows of a (id 8) filled by both threads, one closed by a push through a pusher with a handler; two pop_all side by side. *)
Definition wx_sched : list (nat * kop) := kx_start ++
  [kx 1 (RgPush kx_pa (SmScalar 103 7 1) 0 0); go 1; go 1; kx 0 (RgCall 8 (GoAdd (SmScalar 104 9 2) 0 0)); go 0; go 0;
   kx 1 (RgPush kx_pa (SmScalar 113 8 1) 0 0); kx 0 (RgCall 8 (GoAdd (SmScalar 117 5 1) 0 0)); go 1; go 0; go 1; go 0;
   kx 0 (RgCall 8 (GoAdd (SmScalar 121 4 1) 0 0)); kx 1 (RgCall 8 (GoAdd (SmScalar 122 3 1) 0 0)); go 1; go 0; go 1; go 0;
   kx 0 (RgCall 8 (GoAdd (SmScalar 131 4 1) 0 0)); go 0; go 0;
   kx 0 (RgPopAll false (fun _ => 135)); go 0; go 0; go 0; go 0; kx 1 (RgPopAll false (fun _ => 135)); go 1; go 1; go 1; go 1; go 1; go 1; go 1;
   go 0; go 0; go 0].
Ltac wx := repeat (constructor; [first [exact I | reflexivity | intros EI; discriminate EI | intros rd EI; discriminate EI |
  (intros h || idtac); first [reflexivity | exact I | split; [|exact I]; typed]]|]); constructor.
Example C95_witness : nth_element_ok ne_rev /\ Forall (fun q => kopP gregular (snd q)) wx_sched /\ Forall (fun q => kopP gop_typed (snd q)) wx_sched /\
  Forall (fun q => kopP (gcoherent 10 RSeconds) (snd q)) wx_sched /\
  k_run ne_rev (k_new rx_o 2) wx_sched = Ok (kx_evs wx_sched, kx_end wx_sched) /\
  exists g, exists_obj (kx_end wx_sched) 0 g /\
    map ad_ts (flat_map out_handler (map snd (calls 0 (kx_evs wx_sched)))) = [100] /\
    map ad_ts (gpopped (map fst (calls 0 (kx_evs wx_sched))) (map out_ptr (map snd (calls 0 (kx_evs wx_sched))))) = [110; 120].
Proof.
  split; [apply ne_rev_ok|]. split; [wx|]. split; [wx|]. split; [wx|]. split; [apply kx_ok; vm_compute; reflexivity|].
  eexists. split; [left; exists 2%nat; vm_compute; reflexivity|]. split; vm_compute; reflexivity.
Qed.

(** Not true: that of two pop_all calls the one that returns first brings the earlier window.  Both run at once; thread 0 pops the record
    of 110 of a, thread 1 pops the next one, of 120, and is through first. *)
Theorem C95_returns_refuted : ~ (forall ne, nth_element_ok ne -> forall o, let so := ao_sep (rgo_agg o) in 0 < so_step so ->
  forall threads sched evs c,
  Forall (fun q => kopP gregular (snd q)) sched -> Forall (fun q => kopP gop_typed (snd q)) sched ->
  Forall (fun q => kopP (gcoherent (so_step so) (so_res so)) (snd q)) sched -> Forall (fun q => k_no_del (snd q)) sched ->
  k_run ne (k_new o threads) sched = Ok (evs, c) ->
  forall pre t1 l1 mid t2 l2 post n d1 d2, evs = pre ++ ERet t1 (RNamed l1) :: mid ++ ERet t2 (RNamed l2) :: post ->
  In (n, d1) l1 -> In (n, d2) l2 -> ad_ts d1 <= ad_ts d2).
Proof.
  intros H. destruct C95_witness as (A & B & C & D & E & _).
  assert (ND : Forall (fun q => k_no_del (snd q)) wx_sched) by (repeat constructor).
  assert (X : exists pre t1 n d1 mid t2 d2 post, kx_evs wx_sched = pre ++ ERet t1 (RNamed [(n, d1)]) :: mid ++ ERet t2 (RNamed [(n, d2)]) :: post /\ ad_ts d2 < ad_ts d1).
  { set (m := length (kx_evs (firstn 38 wx_sched))).
    exists (firstn (m - 1) (kx_evs wx_sched)), 1%nat. eexists _, _, (firstn (length (kx_evs wx_sched) - m - 1) (skipn m (kx_evs wx_sched))), 0%nat, _, []. subst m.
    split; [vm_compute; reflexivity|vm_compute; reflexivity]. }
  destruct X as (pre & t1 & n & d1 & mid & t2 & d2 & post & EQ & L).
  pose proof (H ne_rev A rx_o (eq_refl : 0 < so_step (ao_sep (rgo_agg rx_o))) _ _ _ _ B C D ND E _ _ _ _ _ _ _ n d1 d2 EQ (or_introl eq_refl) (or_introl eq_refl)). lia.
Qed.
Print Assumptions C95_returns_refuted.

(** After a clear() of the aggregator both start again, whatever happened before it: the windows are counted from the one clear() opens,
    and all samples recorded from then on are in the records that come out from then on, or wait, or are in the open window. *)
Theorem C95_since_clear : forall ne, nth_element_ok ne -> forall o, let so := ao_sep (rgo_agg o) in 0 < so_step so ->
  forall threads sched evs c s g before ts cl x after,
  Forall (fun q => kopP gop_typed (snd q)) sched ->
  k_run ne (k_new o threads) sched = Ok (evs, c) -> exists_obj c s g ->
  calls s evs = before ++ (GoClear ts cl, x) :: after ->
  let ops := map fst after in
  let outs := map snd after in
  Forall gnot_clear ops -> Forall (gcoherent (so_step so) (so_res so)) ops ->
  exists e now g0 pre pouts g1, created_in e now evs /\ agg_new (rgo_agg o) (ce_clock e) (ce_rnd e) now = Ok g0 /\ creation e pre /\
    g_run ne g0 (pre ++ map fst (before ++ [(GoClear ts cl, x)])) = Ok (pouts ++ map snd (before ++ [(GoClear ts cl, x)]), g1) /\
    g_run ne g1 ops = Ok (outs, g) /\
    let l0 := acc_time (so_step so) (so_res so) cl ts in
    let acc := recorded (so_step so) (so_res so) (g_enabled g1) ops (map out_bool outs) in
    let hs := flat_map out_handler outs in
    let ps := gpopped ops (map out_ptr outs) in
    agg_label g1 = l0 /\
    (exists (groups : list (Z * list (Z * rop))) (opn : list (Z * rop)),
      Forall2 (fun q d => reported_as ne (so_red so) (fst q) (map snd (snd q)) d) groups (hs ++ ps ++ g_list g ++ s_list (g_sep g)) /\
      Permutation (flat_map snd groups ++ opn) acc /\
      Forall (fun q => snd q <> [] /\ Forall (fun p => window_of l0 (so_step so) (fst p) = fst q) (snd q)) groups /\
      Forall (fun p => window_of l0 (so_step so) (fst p) = agg_label g) opn) /\
    (Forall gregular ops ->
     StronglySorted Z.lt (map ad_ts hs) /\ StronglySorted Z.lt (map ad_ts (ps ++ g_list g)) /\
     exists closed recs,
       StronglySorted Z.lt (map fst closed) /\
       (forall w gr, In (w, gr) closed <-> gr = ops_in l0 (so_step so) w acc /\ gr <> [] /\ w < agg_label g) /\
       Forall2 (fun q d => reported_as ne (so_red so) (fst q) (snd q) d) closed recs /\
       Permutation recs (hs ++ ps ++ g_list g)).
Proof.
  intros ne NE o so HS threads sched evs c s g before ts cl x after F2 E EX CA ops outs NC CO.
  destruct (clear_split ne NE o threads sched evs c s g before ts cl x after F2 HS E EX CA) as (e & now & g0 & pre & pouts & g1 & Z & A & B & C & ID & LB & _ & _ & R2 & T).
  exists e, now, g0, pre, pouts, g1. split; auto. split; auto. split; auto. split; auto. split; auto. split; auto.
  cbv zeta. fold so in LB. rewrite <- LB. split.
  - exact (C83_aggregator_windows ne NE (rgo_agg o) HS g1 ID ops outs g T NC CO R2).
  - intros RG. exact (proj2 (C14_aggregator_grouping ne NE (rgo_agg o) ops g1 outs g HS ID T RG CO R2)).
Qed.
Print Assumptions C95_since_clear.
(** Both threads use a; thread 1 clears it with the time 208 in the middle. *)
Definition wx_clear : list (nat * kop) := kx_start ++
  [kx 0 (RgCall 8 (GoAdd (SmScalar 103 7 1) 0 0)); kx 1 (RgCall 8 (GoClear 208 0)); go 0; go 0; go 1; go 1;
   kx 0 (RgCall 8 (GoAdd (SmScalar 209 8 1) 0 0)); go 0; go 0; kx 1 (RgCall 8 (GoAdd (SmScalar 203 9 1) 0 0)); go 1; go 1;
   kx 0 (RgCall 8 (GoAdd (SmScalar 231 6 1) 0 0)); go 0; go 0; kx 1 (RgCall 8 GoPop); go 1; go 1].
Example C95_since_clear_witness : exists evs c g before x after, k_run ne_rev (k_new rx_o 2) wx_clear = Ok (evs, c) /\ exists_obj c 0 g /\
  calls 0 evs = before ++ (GoClear 208 0, x) :: after /\ Forall (fun q => kopP gop_typed (snd q)) wx_clear /\
  Forall gregular (map fst after) /\ Forall (gcoherent 10 RSeconds) (map fst after) /\
  length before = 1%nat /\ map ad_ts (gpopped (map fst after) (map out_ptr (map snd after))) = [200] /\ map ad_count (gpopped (map fst after) (map out_ptr (map snd after))) = [2].
Proof.
  eexists _, _, _, [_], _, [_; _; _; _]. split; [vm_compute; reflexivity|]. split; [left; exists 2%nat; vm_compute; reflexivity|].
  split; [vm_compute; reflexivity|]. split; [wx|]. split; [repeat constructor|]. split; [|split; [reflexivity|split; vm_compute; reflexivity]].
  repeat (constructor; [first [exact I | reflexivity | vm_compute; repeat split; discriminate | vm_compute; repeat split]|]); constructor.
Qed.
