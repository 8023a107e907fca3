(** C87: the percentiles of a record against the measurements of its window. *)
From Coq Require Import ZArith List Bool Permutation Lia Arith.
From Verif Require Import Base SortFacts ModelTypes ModelReducer SpecReducer ModelSeparator SpecSeparator ModelAggregator SpecAggregator
  ModelRegistry SpecRegistry ModelComposite ModelMeters ModelSystem SpecSystem SpecAccuracy AccuracyProofs
  PropsReducer PropsSeparator PropsAggregator PropsRegistry PropsSystem LivesProofs PropsLives.
Import ListNotations.
Local Open Scope Z_scope.

(** C87 *)
(** As long as a window holds at most limit values, the percentiles are exactly those of its measurements. *)
Theorem C87_exact : forall ne, nth_element_ok ne -> forall o out w g d, delivery_of ne o out w g d ->
  (1 <= o_levels o)%nat -> (length (values g) <= o_limit o)%nat -> values g <> [] ->
  percentiles_of (values g) (ad_perc d) /\ perc100_of (values g) (ad_perc d).
Proof. intros ne Hne. exact (delivery_exact ne Hne). Qed.
Print Assumptions C87_exact.

(** Whatever the window holds and in every mode: what the record keeps comes from the first limit*levels values of the window,
    and among those at least n*P/100 + 1 lie at or below the P-th percentile and at least n - n*P/100 at or above it, where n
    is the number of values, but at most limit. *)
Theorem C87_bracket : forall ne, nth_element_ok ne -> forall o out w g d, delivery_of ne o out w g d ->
  (1 <= o_levels o)%nat -> (1 <= o_limit o)%nat -> values g <> [] ->
  let vs := firstn (o_limit o * o_levels o) (values g) in
  let n := Nat.min (length (values g)) (o_limit o) in
  submultiset (ad_data d) vs /\
  forall P x, In (P, x) (percents (ad_perc d)) -> (n * P / 100 + 1 <= below x vs /\ n - n * P / 100 <= above x vs)%nat.
Proof.
  intros ne Hne o out w g d D H1 H2 H3. split; [exact (delivery_prefix ne Hne o out w g d D)|].
  exact (delivery_bracket ne Hne o out w g d D H1 H2 H3).
Qed.
Print Assumptions C87_bracket.

(** In sorting mode the P-th percentile lies between the smallest and the largest of the P-th percentiles of the levels, that
    is of the successive runs of limit values of the window (for a level that is not full: of its value of the same rank, or
    its largest value). *)
Theorem C87_enclosed : forall ne, nth_element_ok ne -> forall o out w g d, delivery_of ne o out w g d ->
  (1 <= o_levels o)%nat -> (1 <= o_limit o)%nat -> values g <> [] -> sorting_mode o ->
  forall P x, In (P, x) (percents (ad_perc d)) ->
    let n := used_levels (o_limit o) (o_levels o) (values g) in
    let k := (Nat.min (length (values g)) (o_limit o) * P / 100)%nat in
    (exists s y, (s < n)%nat /\ rank_is (block (o_limit o) (values g) s) k y /\ y <= x) /\
    (exists s y, (s < n)%nat /\ rank_clipped (block (o_limit o) (values g) s) k y /\ x <= y).
Proof. intros ne Hne. exact (delivery_enclosed ne Hne). Qed.
Print Assumptions C87_enclosed.

(** In sorting mode what a window holds beyond its first limit*levels values has no influence on the percentiles. *)
Theorem C87_late_values : forall ne, nth_element_ok ne -> forall o out w1 w2 g1 g2 d1 d2,
  delivery_of ne o out w1 g1 d1 -> delivery_of ne o out w2 g2 d2 ->
  (1 <= o_levels o)%nat -> (1 <= o_limit o)%nat -> values g1 <> [] -> values g2 <> [] -> sorting_mode o ->
  firstn (o_limit o * o_levels o) (values g1) = firstn (o_limit o * o_levels o) (values g2) ->
  percents (ad_perc d1) = percents (ad_perc d2).
Proof. intros ne Hne. exact (delivery_late ne Hne). Qed.
Print Assumptions C87_late_values.

(** For a whole program: the records received for a name belong to disjoint groups of measurements of that name, made in the
    window the ts of the record tells, and their percentiles are those of the group if it has at most limit values, and
    bracketed as above otherwise. *)
Theorem C87_program : forall ne, nth_element_ok ne -> forall o, 0 < so_step (ao_sep (rgo_agg o)) -> rgo_initializer o = false ->
  let ro := so_red (ao_sep (rgo_agg o)) in (1 <= o_levels ro)%nat -> (1 <= o_limit ro)%nat ->
  forall n, n <> [] -> forall h ops log s, fits o (list_sum (map creations ops)) -> Forall (y_public o) ops ->
  y_run ne (y_new o h) ops = Ok (log, s) -> Forall ev_typed log ->
  Forall (fun x => so_step (ao_sep (rgo_agg o)) <= sm_ts x) (samples n [] log) ->
  exists (groups : list (list sample)) (rest : list sample),
    Permutation (concat groups ++ rest) (samples n [] log) /\
    Forall2 (fun g d =>
      let all := values (map sm_op g) in
      Forall (fun x => ad_ts d <= sm_ts x < ad_ts d + 2 * so_step (ao_sep (rgo_agg o))) g /\
      (all <> [] -> (length all <= o_limit ro)%nat -> percentiles_of all (ad_perc d) /\ perc100_of all (ad_perc d)) /\
      (all <> [] -> forall P x, In (P, x) (percents (ad_perc d)) ->
        let n := Nat.min (length all) (o_limit ro) in
        let vs := firstn (o_limit ro * o_levels ro) all in
        (n * P / 100 + 1 <= below x vs /\ n - n * P / 100 <= above x vs)%nat)) groups (got n log).
Proof.
  intros ne Hne o Hs Hi ro Hlv Hlm n Hn h ops log s F HP E HT HX.
  destruct (C83_windows ne Hne o Hs Hi n Hn h ops log s F HP E HT HX) as (gs & r & G1 & G2). exists gs, r. split; [exact G1|].
  clear - Hne Hlv Hlm G2. induction G2 as [|g d gs ds (D & Ng & W) _ IH]; constructor; auto. cbv zeta. split.
  - eapply Forall_impl; [|exact W]. intros x [Hx _]. exact Hx.
  - split.
    + intros Hv Hl. exact (C87_exact ne Hne _ _ _ _ _ D Hlv Hl Hv).
    + intros Hv. exact (proj2 (C87_bracket ne Hne _ _ _ _ _ D Hlv Hlm Hv)).
Qed.
Print Assumptions C87_program.
(** The program of C83: the hypotheses hold, and the two records of the name have the percentiles of {4,7} and {5,6}. *)
Example C87_witness : rgo_initializer yx_o = false /\ (1 <= o_levels (so_red (ao_sep (rgo_agg yx_o))))%nat /\ na <> [] /\
  fits yx_o (list_sum (map creations yx_more)) /\ Forall (y_public yx_o) yx_more /\
  y_run ne_rev (y_new yx_o true) yx_more = Ok (yx_run yx_more) /\ Forall ev_typed (fst (yx_run yx_more)) /\
  Forall (fun x => so_step (ao_sep (rgo_agg yx_o)) <= sm_ts x) (samples na [] (fst (yx_run yx_more))) /\
  map (fun d => (ad_ts d, percents (ad_perc d))) (got na (fst (yx_run yx_more))) =
    [(100, [(50%nat, 7); (80%nat, 7); (95%nat, 7); (99%nat, 7)]); (110, [(50%nat, 6); (80%nat, 6); (95%nat, 6); (99%nat, 6)])].
Proof.
  split; [reflexivity|]. split; [vm_compute; lia|]. split; [discriminate|]. split; [apply yx_fits|]. split; [apply yx_public|].
  split; [apply yx_ok|]. split; [apply yx_typed|].
  split; [match goal with |- Forall _ ?l => let v := eval vm_compute in l in change l with v end; repeat (constructor; [vm_compute; congruence|]); constructor|].
  vm_compute. reflexivity.
Qed.

(** limit 4, three levels, sorting: what an aggregator delivers for a window of these measurements. *)
Definition ac_o : aopts := mk_aopts (mk_sopts (mk_ropts 4 3 Sorting Sorting) 10 RSeconds 0) 0.
Definition ac_del (x : sample) : option (list (Z * Z * list Z * list (nat * Z))) :=
  let ops := [GoPush x true 0 0; GoPush (SmScalar 112 0 1) true 0 0] in
  match agg_new ac_o 0 0 100 with
  | Ok g => match g_run ne_rev g ops with
            | Ok (outs, _) => Some (map (fun d => (ad_ts d, ad_count d, ad_data d, percents (ad_perc d))) (deliveries ops outs))
            | _ => None
            end
  | _ => None
  end.

(** The median of more than limit values need not be near the reported p50: the twelve values 24,23,...,1, whose median is 13, are
    reported with p50 = 21; only three of them are larger. *)
Definition ac_fall : list Z := [24; 23; 22; 21; 14; 13; 12; 11; 4; 3; 2; 1].
Theorem C87_median_refuted :
  ac_del (SmArr 101 ac_fall 12) = Some [(100, 12, [12; 21; 3; 24], [(50%nat, 21); (80%nat, 24); (95%nat, 24); (99%nat, 24)])] /\
  rank_is ac_fall 6 13 /\ rank_is ac_fall 8 21.
Proof. split; [vm_compute; reflexivity|]. split; apply rank_is_nth_error; vm_compute; reflexivity. Qed.
Print Assumptions C87_median_refuted.

(** What happens late in a busy window is not seen by the percentiles: twelve values of at most 4 and then twelve of at least 50
    are reported with p99 = 4. *)
Theorem C87_late_refuted :
  ac_del (SmArr 101 ([1; 2; 3; 4; 1; 2; 3; 4; 1; 2; 3; 4] ++ [50; 51; 52; 53; 54; 55; 56; 57; 58; 59; 60; 61]) 24) =
  Some [(100, 24, [2; 3; 1; 4], [(50%nat, 3); (80%nat, 4); (95%nat, 4); (99%nat, 4)])].
Proof. vm_compute. reflexivity. Qed.
Print Assumptions C87_late_refuted.

(** A measurement with a count weighs as one: a hundred times 1, once 5 and once 6 have the reported median 5. *)
Theorem C87_weights_refuted : exists g outs g',
  let ops := [GoPush (SmScalar 101 1 100) true 0 0; GoPush (SmScalar 102 5 1) true 0 0; GoPush (SmScalar 103 6 1) true 0 0; GoPush (SmScalar 112 0 1) true 0 0] in
  agg_new ac_o 0 0 100 = Ok g /\ g_run ne_rev g ops = Ok (outs, g') /\
  map (fun d => (ad_count d, percents (ad_perc d))) (deliveries ops outs) = [(102, [(50%nat, 5); (80%nat, 6); (95%nat, 6); (99%nat, 6)])].
Proof. eexists _, _, _. cbv zeta. split; [vm_compute; reflexivity|]. split; vm_compute; reflexivity. Qed.
Print Assumptions C87_weights_refuted.
