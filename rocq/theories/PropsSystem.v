(** C68-C70: programs that measure with wrtstat, from the construction of the wrtstat object to its destruction and beyond. *)
From Coq Require Import ZArith List Bool Permutation Lia Arith Ascii.
From Verif Require Import Base SortFacts ModelTypes ModelReducer SpecReducer ModelSeparator SpecSeparator ModelAggregator SpecAggregator
  ModelRegistry SpecRegistry ModelComposite ModelMeters ModelSystem SpecSystem SystemFinal RegProofs RegFinal PropsReducer PropsSeparator PropsAggregator PropsRegistry.
Import ListNotations.
Local Open Scope Z_scope.

(** A program: a time meter for "a", a composite meter for "b" (time) and "a" (read), three points, pushout().  Times in seconds,
    windows of ten. *)
Definition yx_o : rgopts := mk_rgopts gx_o 0 1 false.
Definition no_clk : role -> Z * Z := fun _ => (0, 0).
Definition yx_names : role -> name := fun k => match k with RoTime => nb | RoRead => na | RoWrite => [] end.
Definition yx_ops : list yop :=
  [YMeterName rx_e na 101; YCompName [RoWrite; RoRead; RoTime] (fun _ => rx_e) yx_names false 101;
   YPt (MNew (KTime 1000) (Some 0%nat) 1 0 0 0 0 5000) no_clk; YPt (MNew (KComp 1) (Some 1%nat) 2 0 7 9 0 100) no_clk;
   YPt (MPush 0 103 9000) no_clk; YPt (MDestroy 1 104 150) no_clk; YReg (RgGetName 1);
   YPt (MNew KValue (Some 0%nat) 1 5 0 0 0 0) no_clk; YPt (MPush 2 112 0) no_clk; YPushout false (fun _ => 112)].
(** The same with add() by number and by name, pop() and a forced flush in between. *)
Definition yx_more : list yop :=
  yx_ops ++ [YReg (RgCall 1 (GoAdd (SmScalar 113 6 1) 0 0)); YReg (RgAddName rx_e nc (mk_rdata (mk_rinfo 113 3 0 1 4 2) [1; 4]) 0 0);
             YReg (RgCall 1 GoPop); YPushout true (fun _ => 114); YPt (MPush 2 115 0) no_clk].
Definition yx_run (ops : list yop) : list yev * sys := match y_run ne_rev (y_new yx_o true) ops with Ok x => x | _ => ([], y_new yx_o true) end.
Example yx_ok : y_run ne_rev (y_new yx_o true) yx_ops = Ok (yx_run yx_ops) /\ y_run ne_rev (y_new yx_o true) yx_more = Ok (yx_run yx_more).
Proof. vm_compute. auto. Qed.
Ltac in_range := simpl; unfold op_typed, i64, is_u64, i64_min, i64_max, two64; simpl; repeat match goal with |- _ /\ _ => split | |- Forall _ _ => constructor end; simpl; lia.
Example yx_typed : Forall ev_typed (fst (yx_run yx_ops)) /\ Forall ev_typed (fst (yx_run yx_more)).
Proof.
  split; match goal with |- Forall _ ?l => let v := eval vm_compute in l in change l with v end; repeat (apply Forall_cons; [exact I || in_range|]); constructor.
Qed.

Example yx_fits : fits yx_o (list_sum (map creations yx_ops)) /\ fits yx_o (list_sum (map creations yx_more)).
Proof. split; unfold fits; vm_compute; repeat split; congruence. Qed.
Example yx_public : Forall (y_public yx_o) yx_ops /\ Forall (y_public yx_o) yx_more.
Proof. split; repeat (constructor; [first [exact I | split; [reflexivity|vm_compute; split; congruence]]|]); constructor. Qed.
Example yx_kept : Forall (kept na) yx_ops /\ Forall (kept na) yx_more /\ Forall metered yx_ops.
Proof. repeat split; repeat (constructor; [first [exact I | reflexivity]|]); constructor. Qed.
Example yx_forward : forward 10 (flat_map (times yx_o na) yx_ops) /\ forward 10 (flat_map (times yx_o na) yx_more).
Proof. split; vm_compute; repeat split; congruence. Qed.

(** C68 *)
(** Whatever the program does (create and delete names, enable and disable, flush, destroy the wrtstat object): the records
    received for a name are the records of groups of measurements made for this name, each measurement being used at most once.
    In particular every value received was measured, and the counts do not exceed those measured. *)
Theorem C68_nothing_invented : forall ne, nth_element_ok ne -> forall o, 0 < so_step (ao_sep (rgo_agg o)) -> rgo_initializer o = false ->
  forall n, n <> [] -> forall h ops log s, fits o (list_sum (map creations ops)) -> Forall (y_public o) ops ->
  y_run ne (y_new o h) ops = Ok (log, s) -> Forall ev_typed log ->
  (exists w lost, records_of ne o w (got n log) /\ Permutation (w ++ lost) (sent n [] log)) /\
  submultiset (flat_map ad_data (got n log)) (values (sent n [] log)) /\
  sum_count (got n log) <= declared (sent n [] log).
Proof. exact invented. Qed.
Print Assumptions C68_nothing_invented.
Example C68_invented_witness :
  sent na [] (fst (yx_run yx_more)) = [OpAdd 4 1; OpAdd 7 2; OpAdd 5 1; OpAdd 6 1; OpAdd 5 1] /\
  map (fun d => (ad_ts d, ad_count d, ad_data d)) (got na (fst (yx_run yx_more))) = [(100, 3, [4; 7]); (110, 2, [5; 6])].
Proof. vm_compute. auto. Qed.

(** If the name is not deleted, nothing is disabled and no time lies before an earlier one, nothing is lost either: every
    measurement is in a record received, in a record waiting, or in the open window of the name's aggregator, and the counts
    add up (modulo 2^64). *)
Theorem C68_conservation : forall ne, nth_element_ok ne -> forall o, 0 < so_step (ao_sep (rgo_agg o)) -> rgo_initializer o = false ->
  forall n, n <> [] -> forall h ops log s, fits o (list_sum (map creations ops)) -> Forall (y_public o) ops ->
  Forall (kept n) ops -> forward (so_step (ao_sep (rgo_agg o))) (flat_map (times o n) ops) ->
  y_run ne (y_new o h) ops = Ok (log, s) -> Forall ev_typed log ->
  exists w held, records_of ne o w (got n log) /\ Permutation (w ++ held) (sent n [] log) /\
    ((forall id sn g, ~ registered (y_reg s) n id sn g) -> held = []) /\
    forall id sn g p, registered (y_reg s) n id sn g -> g_current ne g = Ok p ->
      exists wq opn, held = wq ++ opn /\ records_of ne o wq (g_list g ++ s_list (g_sep g)) /\
        match p with Some d => ad_count d | None => 0 end = u64 (declared opn) /\
        u64 (sum_count (got n log) + sum_count (g_list g ++ s_list (g_sep g)) + match p with Some d => ad_count d | None => 0 end)
        = u64 (declared (sent n [] log)).
Proof. exact conserved. Qed.
Print Assumptions C68_conservation.
Example C68_conservation_witness : exists g p, registered (y_reg (snd (yx_run yx_more))) na 1 0 g /\ g_current ne_rev g = Ok p /\
  match p with Some d => (ad_count d, ad_data d) | None => (0, []) end = (1, [5]).
Proof. eexists _, _. split; [split; [discriminate|split; [reflexivity|exists 1%nat; vm_compute; reflexivity]]|]. split; vm_compute; reflexivity. Qed.

(** Measuring with meters only: when the wrtstat object is destroyed before the open window of the name has ended, everything
    measured has been handed to the handler, each measurement exactly once. *)
Theorem C68_complete : forall ne, nth_element_ok ne -> forall o, 0 < so_step (ao_sep (rgo_agg o)) -> rgo_initializer o = false ->
  forall n, n <> [] -> forall ops log s clk log2 s2, fits o (list_sum (map creations ops)) -> Forall (y_public o) ops ->
  Forall (kept n) ops -> Forall metered ops -> forward (so_step (ao_sep (rgo_agg o))) (flat_map (times o n) ops) ->
  y_run ne (y_new o true) ops = Ok (log, s) -> Forall ev_typed log ->
  (forall id sn g, registered (y_reg s) n id sn g -> not_due ne (clk n) g) ->
  y_do ne (YDestroy clk) s = Ok (log2, s2) ->
  (exists w, records_of ne o w (got n (log ++ log2)) /\ Permutation w (sent n [] log)) /\
  u64 (sum_count (got n (log ++ log2))) = u64 (declared (sent n [] log)).
Proof. exact complete. Qed.
Print Assumptions C68_complete.
Example C68_complete_witness : (forall id sn g, registered (y_reg (snd (yx_run yx_ops))) na id sn g -> not_due ne_rev 118 g) /\
  exists log2 s2, y_do ne_rev (YDestroy (fun _ => 118)) (snd (yx_run yx_ops)) = Ok (log2, s2) /\
    sent na [] (fst (yx_run yx_ops)) = [OpAdd 4 1; OpAdd 7 2; OpAdd 5 1] /\
    map (fun d => (ad_ts d, ad_count d, ad_data d)) (got na (fst (yx_run yx_ops) ++ log2)) = [(100, 3, [4; 7]); (110, 1, [5])] /\
    map (fun d => (ad_ts d, ad_count d, ad_data d)) (got nb (fst (yx_run yx_ops) ++ log2)) = [(100, 2, [50])].
Proof.
  split.
  - intros id s g (_ & _ & pos & E). apply get_some, nth_error_In in E. vm_compute in E.
    repeat (destruct E as [E|E]; [try discriminate E; injection E as _ <-; exists []; vm_compute; reflexivity|]). destruct E.
  - eexists _, _. split; [vm_compute; reflexivity|]. vm_compute. auto.
Qed.
(** Without the last condition it fails: the program above, destroyed when the window 110 is over, never reports the 5. *)
Theorem C68_due_refuted : exists log2 s2, y_run ne_rev (y_new yx_o true) yx_ops = Ok (yx_run yx_ops) /\
  y_do ne_rev (YDestroy (fun _ => 120)) (snd (yx_run yx_ops)) = Ok (log2, s2) /\
  sent na [] (fst (yx_run yx_ops)) = [OpAdd 4 1; OpAdd 7 2; OpAdd 5 1] /\
  map (fun d => (ad_ts d, ad_count d, ad_data d)) (got na (fst (yx_run yx_ops) ++ log2)) = [(100, 3, [4; 7])].
Proof. eexists _, _. split; [apply yx_ok|]. split; [vm_compute; reflexivity|]. vm_compute. auto. Qed.
Print Assumptions C68_due_refuted.

(** What [sent] takes for granted: the n-th meter that is not null has the number n (counting from 0). *)
Theorem C68_numbers : forall ne o h ops log s, y_run ne (y_new o h) ops = Ok (log, s) -> numbers log = seq 0 (length (meters log)).
Proof. intros ne o h ops log s E. apply run_numbers in E as [-> _]. reflexivity. Qed.
Print Assumptions C68_numbers.
Example C68_numbers_witness : numbers (fst (yx_run yx_more)) = [0; 1]%nat.
Proof. reflexivity. Qed.

(** C69 *)
(** After any program: create_time_meter(name), create_size_meter(name), create_value_meter(name) make a meter that measures
    under that name; it is null exactly if the name is empty. *)
Theorem C69_meter : forall ne, nth_element_ok ne -> forall o, 0 < so_step (ao_sep (rgo_agg o)) -> rgo_initializer o = false ->
  forall h ops log s e m now l s', fits o (S (list_sum (map creations ops))) -> Forall (y_public o) ops ->
  y_run ne (y_new o h) ops = Ok (log, s) -> Forall ev_typed log -> y_do ne (YMeterName e m now) s = Ok (l, s') ->
  exists x, l = [x] /\ meter_for x (one_name m) false.
Proof.
  intros ne Hne o Hs Hi h ops log s e m now l s' F HP E HT ED.
  destruct (after_run ne Hne o Hs Hi na ltac:(discriminate) _ h ops log s F HP E HT ltac:(lia)) as (k & tbl & S0 & G & T & L & H).
  assert (A : y_alive s = true) by (cbn [y_do] in ED; destruct (y_alive s); simpl in ED; congruence).
  rewrite (meter_named ne Hne o Hs na ltac:(discriminate) _ h k s tbl S0 G T e m now l s' F ltac:(lia) H A ED). eexists. split; [reflexivity|].
  destruct m; unfold meter_for; rewrite one_null; (split; [try (intros []; reflexivity); reflexivity|]); split; try congruence; split; congruence.
Qed.
Print Assumptions C69_meter.

(** create_time_multi_meter, create_size_multi_meter, create_value_multi_meter: one meter for each prefix, in order, measuring under
    prefix ++ name; null exactly if both are empty. *)
Theorem C69_multi : forall ne, nth_element_ok ne -> forall o, 0 < so_step (ao_sep (rgo_agg o)) -> rgo_initializer o = false ->
  forall h ops log s prefixes m es l s', fits o (list_sum (map creations ops) + length prefixes) -> Forall (y_public o) ops ->
  y_run ne (y_new o h) ops = Ok (log, s) -> Forall ev_typed log -> y_alive s = true ->
  length es = length prefixes -> y_run ne s (y_multi prefixes m es) = Ok (l, s') ->
  Forall2 (fun p x => meter_for x (one_name (p ++ m)) false) prefixes l.
Proof.
  intros ne Hne o Hs Hi h ops log s prefixes m es l s' F HP E HT A HL ED.
  destruct (after_run ne Hne o Hs Hi na ltac:(discriminate) _ h ops log s F HP E HT ltac:(lia)) as (k & tbl & S0 & G & T & L & H).
  eapply (multi_named ne Hne o Hs na ltac:(discriminate) _ h m F prefixes es k s tbl S0 G T l s'); eauto. lia.
Qed.
Print Assumptions C69_multi.

(** create_composite_multi_meter: for each prefix a meter; an empty name stays empty (nothing is measured for it), the others get the
    prefix.  The names may be created in any order. *)
Theorem C69_composite : forall ne, nth_element_ok ne -> forall o, 0 < so_step (ao_sep (rgo_agg o)) -> rgo_initializer o = false ->
  forall h ops log s prefixes m sum es l s', fits o (list_sum (map creations ops) + list_sum (map (fun q => length (fst (fst q))) es)) ->
  Forall (y_public o) ops -> y_run ne (y_new o h) ops = Ok (log, s) -> Forall ev_typed log -> y_alive s = true ->
  length es = length prefixes -> Forall (fun q => forall k, In k (fst (fst q))) es ->
  y_run ne s (y_comp_multi prefixes m sum es) = Ok (l, s') ->
  Forall2 (fun p x => meter_for x (fun k => match m k with [] => [] | _ => p ++ m k end) sum) prefixes l.
Proof.
  intros ne Hne o Hs Hi h ops log s prefixes m sum es l s' F HP E HT A HL HO ED.
  destruct (after_run ne Hne o Hs Hi na ltac:(discriminate) _ h ops log s F HP E HT ltac:(lia)) as (k & tbl & S0 & G & T & L & H).
  eapply (comp_multi_named ne Hne o Hs na ltac:(discriminate) _ h m sum F prefixes es k s tbl S0 G T l s'); eauto. lia.
Qed.
Print Assumptions C69_composite.
Definition yx_env : list role * (role -> cenv) * Z := ([RoWrite; RoTime; RoRead], (fun _ => rx_e), 115).
Example C69_witness : fits yx_o (list_sum (map creations yx_more) + 6) /\ y_alive (snd (yx_run yx_more)) = true /\
  (exists l s', y_run ne_rev (snd (yx_run yx_more)) (y_multi [na; []; nb] nc [(rx_e, 115); (rx_e, 115); (rx_e, 115)]) = Ok (l, s') /\
     map (fun m => fst m RoTime) (meters l) = [na ++ nc; nc; nb ++ nc]) /\
  (exists l s', y_run ne_rev (snd (yx_run yx_more)) (y_multi [na; []] [] [(rx_e, 115); (rx_e, 115)]) = Ok (l, s') /\
     map (fun m => fst m RoTime) (meters l) = [na] /\ length l = 2%nat) /\
  (exists l s', y_run ne_rev (snd (yx_run yx_more)) (y_comp_multi [na; nb] yx_names true [yx_env; yx_env]) = Ok (l, s') /\
     map (fun m => (map (fst m) [RoTime; RoRead; RoWrite], snd m)) (meters l) = [([na ++ nb; na ++ na; []], true); ([nb ++ nb; nb ++ na; []], true)]).
Proof.
  split; [unfold fits; vm_compute; repeat split; congruence|]. split; [reflexivity|].
  split; [|split]; eexists _, _; (split; [vm_compute; reflexivity|]); vm_compute; auto.
Qed.

(** C70 *)
(** When the wrtstat object has been destroyed, points (and meters) can still be used, in any way: nothing faults, the handler
    is not called, and what is left of the wrtstat object is not touched. *)
Theorem C70_points_outlive : forall ne o h ops log s after, y_run ne (y_new o h) ops = Ok (log, s) -> y_alive s = false -> Forall only_points after ->
  exists l s', y_run ne s after = Ok (l, s') /\ (forall n d, ~ In (LHandler n d) l) /\ y_wrt s' = y_wrt s.
Proof.
  intros ne o h ops log s after E A HP. destruct (new_inv o h) as [W O]. destruct (SystemFinal.run_inv ne ops _ _ _ W O E) as [W1 O1]. now apply points_outlive.
Qed.
Print Assumptions C70_points_outlive.
(** Here the value point 2 and the pushed time point 0 go on. *)
Definition yx_after : list yop :=
  [YPt (MPush 2 119 0) no_clk; YPt (MClone 2 1 8 0 0 0 0) no_clk; YPt (MDestroy 2 130 0) no_clk; YPt (MResetFun 0 (Some 0%nat) 1 0 0 0 0 131 0 0) no_clk;
   YPt (MPush 0 132 9) no_clk; YPt (MDestroy 3 133 0) no_clk].
Example C70_witness : exists log s l s', y_run ne_rev (y_new yx_o true) (yx_more ++ [YDestroy (fun _ => 116)]) = Ok (log, s) /\ y_alive s = false /\
  Forall only_points yx_after /\ y_run ne_rev s yx_after = Ok (l, s') /\
  flat_map (fun e => match e with LPoint (EvReport r) => [rp_value r] | _ => [] end) l = [5; 5; 0; 8].
Proof.
  eexists _, _, _, _. split; [vm_compute; reflexivity|]. split; [reflexivity|]. split; [repeat constructor|]. split; [vm_compute; reflexivity|]. vm_compute. reflexivity.
Qed.
