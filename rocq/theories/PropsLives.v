(** C83-C85: what the records a program receives for a name say about its measurements. *)
From Coq Require Import ZArith List Bool Permutation Sorted Lia Arith Ascii.
From Verif Require Import Base SortFacts ModelTypes ModelReducer SpecReducer ModelSeparator SpecSeparator ModelAggregator SpecAggregator
  WindowProofs ModelRegistry SpecRegistry ModelComposite ModelMeters ModelSystem SpecSystem SystemProofs SystemFinal LivesProofs RegProofs RegFinal
  PropsReducer PropsSeparator PropsAggregator PropsRegistry PropsSystem.
Import ListNotations.
Local Open Scope Z_scope.

(** C83 *)
(** A separator that holds nothing, used in any way except clear(), with times that are not truncated to 0 while a clock is
    configured: the records it hands out (to handlers, by pop(), or still queued) are those of a partition of the samples
    accepted; a group is never empty, and its samples are those whose truncated time lies in the window that starts at the ts
    of the record.  What is in no record is in the open window. *)
Theorem C83_separator_windows : forall ne, nth_element_ok ne -> forall so, 0 < so_step so -> forall s0, idle ne so s0 ->
  forall ops outs s, Forall sop_typed ops -> Forall not_clear ops -> Forall (coherent (so_step so) (so_res so)) ops ->
  s_run ne s0 ops = Ok (outs, s) ->
  exists (groups : list (Z * list (Z * rop))) (opn : list (Z * rop)),
    Forall2 (fun q a => record_of ne (so_red so) (fst q) (map snd (snd q)) a) groups
      (flat_map out_handler outs ++ popped ops (map out_ptr outs) ++ s_list s) /\
    Permutation (flat_map snd groups ++ opn) (accepted (so_step so) (so_res so) ops (map out_bool outs)) /\
    Forall (fun q => snd q <> [] /\ Forall (fun p => window_of (sep_label s0) (so_step so) (fst p) = fst q) (snd q)) groups /\
    Forall (fun p => window_of (sep_label s0) (so_step so) (fst p) = sep_label s) opn.
Proof. intros ne Hne so Hs s0 ID ops outs s HT HN HC E. exact (sep_windows ne Hne so ops s0 outs s Hs ID HT HN HC E). Qed.
Print Assumptions C83_separator_windows.
(** The history of C14, then force_pop() in the middle of the window 170 and two more samples: two records of one window. *)
Definition lx_sops : list sop := sx_ops ++ [SoForcePop; SoForcePop; SoAdd (SmScalar 175 8 1) 0 0; SoForcePop; SoAdd (SmScalar 181 1 1) 0 0].
Example C83_separator_witness : Forall sop_typed lx_sops /\ Forall not_clear lx_sops /\ Forall (coherent 10 RSeconds) lx_sops /\
  exists outs s, s_run ne_rev sx_s0 lx_sops = Ok (outs, s) /\
    map ad_ts (flat_map out_handler outs ++ popped lx_sops (map out_ptr outs) ++ s_list s) = [100; 110; 140; 150; 170; 170] /\
    map fst (accepted 10 RSeconds lx_sops (map out_bool outs)) = [100; 100; 110; 140; 150; 170; 170; 180] /\ sep_label s = 180.
Proof.
  split; [apply Forall_app; split; [exact sx_typed|repeat (constructor; [first [exact I | split; [|exact I]; typed | typed]|]); constructor]|].
  split; [repeat (constructor; [exact I|]); constructor|]. split; [repeat (constructor; [first [exact I | reflexivity]|]); constructor|].
  eexists _, _. split; [vm_compute; reflexivity|]. vm_compute. auto 10.
Qed.

(** The same for an aggregator, which may also be switched off and on. *)
Theorem C83_aggregator_windows : forall ne, nth_element_ok ne -> forall o, 0 < so_step (ao_sep o) -> forall g0, g_idle ne o g0 ->
  forall ops outs g, Forall gop_typed ops -> Forall gnot_clear ops -> Forall (gcoherent (so_step (ao_sep o)) (so_res (ao_sep o))) ops ->
  g_run ne g0 ops = Ok (outs, g) ->
  exists (groups : list (Z * list (Z * rop))) (opn : list (Z * rop)),
    Forall2 (fun q d => reported_as ne (so_red (ao_sep o)) (fst q) (map snd (snd q)) d) groups
      (flat_map out_handler outs ++ gpopped ops (map out_ptr outs) ++ g_list g ++ s_list (g_sep g)) /\
    Permutation (flat_map snd groups ++ opn) (recorded (so_step (ao_sep o)) (so_res (ao_sep o)) (g_enabled g0) ops (map out_bool outs)) /\
    Forall (fun q => snd q <> [] /\ Forall (fun p => window_of (agg_label g0) (so_step (ao_sep o)) (fst p) = fst q) (snd q)) groups /\
    Forall (fun p => window_of (agg_label g0) (so_step (ao_sep o)) (fst p) = agg_label g) opn.
Proof. intros ne Hne o Hs g0 ID ops outs g HT HN HC E. exact (agg_windows ne Hne o ops g0 outs g Hs ID HT HN HC E). Qed.
Print Assumptions C83_aggregator_windows.
Definition lx_gops : list gop := gx_ops ++ [GoForcePop; GoForcePop; GoPush (SmScalar 175 8 1) true 0 0; GoForcePop].
Example C83_aggregator_witness : Forall gop_typed lx_gops /\ Forall gnot_clear lx_gops /\ Forall (gcoherent 10 RSeconds) lx_gops /\
  exists outs g, g_run ne_rev gx_g0 lx_gops = Ok (outs, g) /\
    map ad_ts (flat_map out_handler outs ++ gpopped lx_gops (map out_ptr outs) ++ g_list g ++ s_list (g_sep g)) = [100; 110; 140; 170; 170; 150] /\
    map fst (recorded 10 RSeconds true lx_gops (map out_bool outs)) = [100; 100; 110; 140; 150; 170; 170].
Proof.
  split; [apply Forall_app; split; [exact gx_typed|repeat (constructor; [first [exact I | split; [|exact I]; typed]|]); constructor]|].
  split; [repeat (constructor; [exact I|]); constructor|]. split; [repeat (constructor; [first [exact I | reflexivity]|]); constructor|].
  eexists _, _. split; [vm_compute; reflexivity|]. vm_compute. auto 10.
Qed.

(** Whatever the program does: if no time given is smaller than the step, the records received for a name are the delivered
    forms of groups of measurements of that name, no measurement being in two of them, and the ts of a record tells when its
    measurements were made: none before ts, all of them before ts+2*step, and before ts+step if the option soiled is 0. *)
Theorem C83_windows : forall ne, nth_element_ok ne -> forall o, 0 < so_step (ao_sep (rgo_agg o)) -> rgo_initializer o = false ->
  forall n, n <> [] -> forall h ops log s, fits o (list_sum (map creations ops)) -> Forall (y_public o) ops ->
  y_run ne (y_new o h) ops = Ok (log, s) -> Forall ev_typed log ->
  Forall (fun x => so_step (ao_sep (rgo_agg o)) <= sm_ts x) (samples n [] log) ->
  exists (groups : list (list sample)) (rest : list sample),
    Permutation (concat groups ++ rest) (samples n [] log) /\
    Forall2 (fun g d =>
      delivery_of ne (so_red (ao_sep (rgo_agg o))) (ao_out (rgo_agg o)) (ad_ts d) (map sm_op g) d /\ g <> [] /\
      Forall (fun x => ad_ts d <= sm_ts x < ad_ts d + 2 * so_step (ao_sep (rgo_agg o)) /\
                       (so_soiled (ao_sep (rgo_agg o)) = 0 -> sm_ts x < ad_ts d + so_step (ao_sep (rgo_agg o)))) g) groups (got n log).
Proof.
  intros ne Hne o Hs Hi n Hn h ops log s F HP E HT HX.
  destruct (prog_windows ne Hne o Hs Hi n Hn h ops log s F HP E HT HX) as (gs & r & G1 & G2). exists gs, r. split; auto.
Qed.
Print Assumptions C83_windows.
(** The program of C68: 4 and 7 were measured at 103 and 104, 5 and 6 at 112 and 113. *)
Example C83_witness :
  samples na [] (fst (yx_run yx_more)) = [SmScalar 103 4 1; SmScalar 104 7 2; SmScalar 112 5 1; SmScalar 113 6 1; SmScalar 115 5 1] /\
  map (fun d => (ad_ts d, ad_count d, ad_data d)) (got na (fst (yx_run yx_more))) = [(100, 3, [4; 7]); (110, 2, [5; 6])] /\
  so_step (ao_sep (rgo_agg yx_o)) = 10 /\ so_soiled (ao_sep (rgo_agg yx_o)) = 0.
Proof. vm_compute. auto. Qed.

(** With soiled <> 0 the stronger bound fails: the times of measurements are truncated, the windows do not start at multiples
    of the step.  Step 10, a window from 98: a measurement made at 109 is reported in it. *)
Definition lx_soiled (k : Z) : aopts := mk_aopts (mk_sopts (so_red (ao_sep gx_o)) 10 (so_res (ao_sep gx_o)) k) (ao_out gx_o).
Definition lx_ops : list gop := [GoPush (SmScalar 109 5 1) true 0 0; GoPush (SmScalar 121 6 1) true 0 0].
Theorem C83_soiled_refuted : exists g0 outs g, agg_new (lx_soiled 7) 0 3 100 = Ok g0 /\ g_run ne_rev g0 lx_ops = Ok (outs, g) /\
  map (fun d => (ad_ts d, ad_data d)) (deliveries lx_ops outs) = [(98, [5])].
Proof. eexists _, _, _. split; [vm_compute; reflexivity|]. split; vm_compute; reflexivity. Qed.
Print Assumptions C83_soiled_refuted.

(** C84 *)
(** Whatever the program does: the records received for a name are those of a sequence of aggregators, each made once and used
    alone, one after the other; they were given measurements made for that name, in the order in which they were made, none
    twice.  The aggregator registered for the name at the end is the last of them. *)
Theorem C84_lives : forall ne, nth_element_ok ne -> forall o, 0 < so_step (ao_sep (rgo_agg o)) -> rgo_initializer o = false ->
  forall n, n <> [] -> forall h ops log s, fits o (list_sum (map creations ops)) -> Forall (y_public o) ops ->
  y_run ne (y_new o h) ops = Ok (log, s) -> Forall ev_typed log ->
  exists lives : list life,
    Forall (fun l => Forall gop_typed (lf_ops l) /\ Forall life_op (lf_ops l) /\ exists g, lived ne (rgo_agg o) l g) lives /\
    got n log = flat_map life_records lives /\
    subseq (flat_map life_samples lives) (samples n [] log) /\
    (forall id sn g, registered (y_reg s) n id sn g -> exists past l, lives = past ++ [l] /\ lived ne (rgo_agg o) l g).
Proof. intros ne Hne o Hs Hi n Hn h ops log s. exact (prog_lives ne Hne o Hs Hi n Hn h ops log s). Qed.
Print Assumptions C84_lives.

(** If the name is not deleted, nothing is disabled and no time lies before an earlier one, there is only one aggregator, the
    one registered at the end; it was given exactly what was measured, and what the program received is what it handed out.  So
    everything proved about one aggregator (C09-C20) holds for the name, whatever else the program does. *)
Theorem C84_one_life : forall ne, nth_element_ok ne -> forall o, 0 < so_step (ao_sep (rgo_agg o)) -> rgo_initializer o = false ->
  forall n, n <> [] -> forall h ops log s, fits o (list_sum (map creations ops)) -> Forall (y_public o) ops ->
  Forall (kept n) ops -> forward (so_step (ao_sep (rgo_agg o))) (flat_map (times o n) ops) ->
  y_run ne (y_new o h) ops = Ok (log, s) -> Forall ev_typed log ->
  (samples n [] log = [] /\ got n log = [] /\ forall id sn g, ~ registered (y_reg s) n id sn g) \/
  exists l id sn g, registered (y_reg s) n id sn g /\ Forall gop_typed (lf_ops l) /\ Forall life_op (lf_ops l) /\
    lived ne (rgo_agg o) l g /\ got n log = life_records l /\ samples n [] log = life_samples l.
Proof. intros ne Hne o Hs Hi n Hn h ops log s. exact (prog_one ne Hne o Hs Hi n Hn h ops log s). Qed.
Print Assumptions C84_one_life.
(** The life of the aggregator behind "a" in the program of C68. *)
Definition lx_life_ops : list gop :=
  [GoPush (SmScalar 103 4 1) true 0 0; GoPush (SmScalar 104 7 2) true 0 0; GoPush (SmScalar 112 5 1) true 0 0; GoSeparate 0 false false 112;
   GoAdd (SmScalar 113 6 1) 0 0; GoPop; GoForcePop; GoPush (SmScalar 115 5 1) true 0 0].
Example C84_witness : exists outs g, lived ne_rev (rgo_agg yx_o) (mk_life 0 0 101 lx_life_ops outs) g /\
  registered (y_reg (snd (yx_run yx_more))) na 1 0 g /\
  life_records (mk_life 0 0 101 lx_life_ops outs) = got na (fst (yx_run yx_more)) /\
  life_samples (mk_life 0 0 101 lx_life_ops outs) = samples na [] (fst (yx_run yx_more)).
Proof.
  eexists _, _. split; [eexists; split; [vm_compute; reflexivity|cbn [lf_ops lf_outs]; vm_compute; reflexivity]|].
  split; [split; [discriminate|split; [reflexivity|exists 1%nat; vm_compute; reflexivity]]|]. split; vm_compute; reflexivity.
Qed.
(** Two lives: the name is deleted in between, and made again. *)
Definition lx_twice : list yop :=
  [YMeterName rx_e na 101; YPt (MNew KValue (Some 0%nat) 1 4 0 0 0 0) no_clk; YPt (MPush 0 103 0) no_clk; YPushout true (fun _ => 104);
   YReg (RgDel na); YMeterName rx_e na 105; YPt (MNew KValue (Some 1%nat) 1 9 0 0 0 0) no_clk; YPt (MPush 0 106 0) no_clk; YPt (MPush 1 107 0) no_clk;
   YPushout true (fun _ => 108)].
Example C84_twice_witness : exists log s, y_run ne_rev (y_new yx_o true) lx_twice = Ok (log, s) /\
  samples na [] log = [SmScalar 103 4 1; SmScalar 106 4 1; SmScalar 107 9 1] /\
  map (fun d => (ad_ts d, ad_count d, ad_data d)) (got na log) = [(100, 1, [4]); (100, 1, [9])].
Proof. eexists _, _. split; [vm_compute; reflexivity|]. vm_compute. auto. Qed.

(** C85 *)
(** Measuring with meters only, not deleted, nothing disabled, nothing flushed by force, no time before an earlier one: the
    records of a name arrive in the order of their windows, through the handler, pop() and pop_all() taken together, and none
    belongs to a window after the open one. *)
Theorem C85_in_order : forall ne, nth_element_ok ne -> forall o, 0 < so_step (ao_sep (rgo_agg o)) -> rgo_initializer o = false ->
  forall n, n <> [] -> forall ops log s, fits o (list_sum (map creations ops)) -> Forall (y_public o) ops ->
  Forall (kept n) ops -> Forall metered ops -> forward (so_step (ao_sep (rgo_agg o))) (flat_map (times o n) ops) ->
  y_run ne (y_new o true) ops = Ok (log, s) -> Forall ev_typed log ->
  StronglySorted Z.le (map ad_ts (got n log)) /\
  forall id sn g, registered (y_reg s) n id sn g -> Forall (fun d => ad_ts d <= agg_label g) (got n log).
Proof. exact prog_order. Qed.
Print Assumptions C85_in_order.
(** The program of C68, going on: records from the handler, from pushout(), from force_pop() and from pop(). *)
Definition lx_ordered : list yop :=
  yx_ops ++ [YReg (RgCall 1 GoForcePop); YPt (MPush 2 123 0) no_clk; YPt (MPush 2 135 0) no_clk; YPushout false (fun _ => 141);
             YPt (MPush 2 141 0) no_clk; YReg (RgCall 1 GoForcePop); YReg (RgCall 1 GoPop)].
Example C85_witness : fits yx_o (list_sum (map creations lx_ordered)) /\ Forall (y_public yx_o) lx_ordered /\ Forall (kept na) lx_ordered /\
  Forall metered lx_ordered /\ forward 10 (flat_map (times yx_o na) lx_ordered) /\
  exists log s, y_run ne_rev (y_new yx_o true) lx_ordered = Ok (log, s) /\ Forall ev_typed log /\
    map (fun d => (ad_ts d, ad_data d)) (got na log) = [(100, [4; 7]); (110, [5]); (120, [5]); (130, [5]); (140, [5])].
Proof.
  split; [unfold fits; vm_compute; repeat split; congruence|]. split; [repeat (constructor; [first [exact I | split; [reflexivity|vm_compute; split; congruence]]|]); constructor|].
  split; [repeat (constructor; [first [exact I | reflexivity]|]); constructor|]. split; [repeat (constructor; [first [exact I | reflexivity]|]); constructor|].
  split; [vm_compute; repeat split; congruence|]. eexists _, _. split; [vm_compute; reflexivity|].
  split; [repeat (apply Forall_cons; [exact I || in_range|]); constructor|vm_compute; reflexivity].
Qed.
(** A forced flush breaks the order: force_pop_all() closes a window that is over but returns only what is left open; the
    closed record waits while later windows go to the handler. *)
Definition lx_forced : list yop :=
  [YMeterName rx_e na 101; YPt (MNew KValue (Some 0%nat) 1 4 0 0 0 0) no_clk; YPt (MPush 0 103 0) no_clk; YPushout true (fun _ => 112);
   YPt (MPush 0 113 0) no_clk; YPt (MPush 0 125 0) no_clk; YPushout false (fun _ => 126)].
Theorem C85_forced_refuted : exists log s, y_run ne_rev (y_new yx_o true) lx_forced = Ok (log, s) /\
  Forall (kept na) lx_forced /\ forward 10 (flat_map (times yx_o na) lx_forced) /\ map ad_ts (got na log) = [110; 100].
Proof.
  eexists _, _. split; [vm_compute; reflexivity|]. split; [repeat (constructor; [first [exact I | reflexivity]|]); constructor|].
  split; [vm_compute; repeat split; congruence|vm_compute; reflexivity].
Qed.
Print Assumptions C85_forced_refuted.
