(** C73, C74: what a program receives from wrtstat, and what arrives elsewhere if it sends it on. *)
From Coq Require Import String ZArith List Bool Permutation Lia Arith Ascii.
From Verif Require Import Base SortFacts ModelTypes ModelReducer SpecReducer ModelSeparator SpecSeparator ModelAggregator SpecAggregator
  ModelRegistry SpecRegistry ModelComposite ModelMeters ModelSystem SpecSystem
  ModelJson ModelPacker SpecPacker ModelCodec SpecCodec CodecRound PropsPacker PropsCodec SpecWire LiftProofs WireProofs
  PropsReducer PropsSeparator PropsAggregator PropsRegistry PropsSystem.
Import ListNotations.
Local Open Scope Z_scope.
Local Open Scope list_scope.

Lemma run_records : forall ne, nth_element_ok ne -> forall o, 0 < so_step (ao_sep (rgo_agg o)) ->
  forall h ops log s, Forall y_open ops -> y_run ne (y_new o h) ops = Ok (log, s) -> Forall ev_typed log ->
  Forall (recok ne (rgo_agg o)) (received_all log).
Proof.
  intros ne Hne o Hs h ops log s HO E HT.
  assert (N : forall c rnd ts g, agg_new (rgo_agg o) c rnd ts = Ok g -> gok ne (rgo_agg o) g) by (intros c rnd ts g Eg; exact (gok_new ne _ c rnd ts g Hs Eg)).
  apply (lift_yrun ne (rgo_agg o) (gok ne (rgo_agg o)) (recok ne (rgo_agg o)) N
    (fun op g r g' G PL Ec => gok_call ne Hne (rgo_agg o) op g r g' Hs G PL Ec) ops (y_new o h) log s); auto.
  exact (RP_new (rgo_agg o) (gok ne (rgo_agg o)) o eq_refl).
Qed.

(** C73: every record a program receives, through the handler or by pop, is the finished record of a window of measurements. *)
Theorem C73_windows : forall ne, nth_element_ok ne -> forall o, 0 < so_step (ao_sep (rgo_agg o)) ->
  forall h ops log s, Forall y_open ops -> y_run ne (y_new o h) ops = Ok (log, s) -> Forall ev_typed log ->
  Forall (fun d => exists w g, delivery_of ne (so_red (ao_sep (rgo_agg o))) (ao_out (rgo_agg o)) w g d) (received_all log).
Proof. intros. eapply Forall_impl; [|eapply run_records; eassumption]. intros d [_ D]. exact D. Qed.
Print Assumptions C73_windows.

(** Its fields fit together: values between min and max, percentiles in order and between them, zero if there are no values. *)
Theorem C73_fields : forall ne, nth_element_ok ne -> forall o, 0 < so_step (ao_sep (rgo_agg o)) ->
  forall h ops log s, Forall y_open ops -> y_run ne (y_new o h) ops = Ok (log, s) -> Forall ev_typed log ->
  Forall well_ordered (received_all log).
Proof.
  intros ne Hne o Hs h ops log s HO E HT. eapply Forall_impl; [|eapply run_records; eassumption]. intros d (T & w & g & D).
  apply (delivery_facts ne Hne (rgo_agg o) w g d T D).
Qed.
Print Assumptions C73_fields.

(** It carries at most reducer_limit values, and about outgoing_reduced_size if that is set. *)
Theorem C73_size : forall ne, nth_element_ok ne -> forall o, 0 < so_step (ao_sep (rgo_agg o)) ->
  forall h ops log s, Forall y_open ops -> y_run ne (y_new o h) ops = Ok (log, s) -> Forall ev_typed log ->
  Forall (fun d => (List.length (ad_data d) <= o_limit (so_red (ao_sep (rgo_agg o))))%nat /\
    (ao_out (rgo_agg o) <> 0 -> List.length (ad_data d) <= ao_out (rgo_agg o) + ao_out (rgo_agg o) / 2)%nat) (received_all log).
Proof.
  intros ne Hne o Hs h ops log s HO E HT. eapply Forall_impl; [|eapply run_records; eassumption]. intros d (T & w & g & D).
  apply (delivery_facts ne Hne (rgo_agg o) w g d T D).
Qed.
Print Assumptions C73_size.

Definition wx_ops : list yop := yx_more ++ [YReg (RgCall 1 (GoAdd (SmScalar 121 8 2) 0 0)); YReg (RgCall 1 (GoAdd (SmScalar 122 3 1) 0 0)); YReg (RgPopAll true (fun _ => 125)); YDestroy (fun _ => 140)].
Definition wx_log : list yev := fst (yx_run wx_ops).
Ltac opens := repeat (constructor; [first [exact I | intros ?; exact I]|]); constructor.
Example C73_witness : Forall y_open wx_ops /\ y_run ne_rev (y_new yx_o true) wx_ops = Ok (yx_run wx_ops) /\ Forall ev_typed wx_log /\
  map (fun d => (ad_ts d, ad_count d, ad_min d, p50 (ad_perc d), p100 (ad_perc d), ad_max d, ad_data d)) (received_all wx_log) =
    [(100, 3, 4, 7, 7, 7, [4; 7]); (100, 2, 50, 50, 50, 50, [50]); (110, 2, 5, 6, 6, 6, [5; 6]); (110, 3, 1, 4, 4, 4, [1; 4]);
     (120, 3, 3, 8, 8, 8, [3; 8])].
Proof.
  split; [opens|]. split; [vm_compute; reflexivity|]. split.
  - unfold wx_log. match goal with |- Forall _ ?l => let v := eval vm_compute in l in change l with v end. repeat (apply Forall_cons; [exact I || in_range|]); constructor.
  - vm_compute. reflexivity.
Qed.

(** C74: what is received can be sent: every field has the type its JSON form can hold, so writing and reading gives it back. *)
Theorem C74_sendable : forall ne, nth_element_ok ne -> forall o, 0 < so_step (ao_sep (rgo_agg o)) ->
  forall h ops log s, Forall y_open ops -> y_run ne (y_new o h) ops = Ok (log, s) -> Forall ev_typed log ->
  forall esc parse, wjson_ok esc parse -> forall n d compact t rest, In d (received_all log) -> no_digit rest ->
  read parse (c_push compact) (push_text esc compact (mk_push n d) ++ rest) t = (mk_push n d, true).
Proof.
  intros ne Hne o Hs h ops log s HO E HT esc parse W n d compact t rest I N. apply C55_push; auto.
  pose proof (run_records ne Hne o Hs h ops log s HO E HT) as R. rewrite Forall_forall in R. destruct (R d I) as (T & w & g & D).
  apply (delivery_facts ne Hne (rgo_agg o) w g d T D).
Qed.
Print Assumptions C74_sendable.

(** The whole way: the handler's records are pushed into a packer, in any grouping and with batches taken out at any time; the packer is
    pushed out at the end; each batch goes to its receiver as text.  The receivers together have exactly the records the handler got. *)
Theorem C74_arrives : forall ne, nth_element_ok ne -> forall o, 0 < so_step (ao_sep (rgo_agg o)) ->
  forall h ops log s, Forall y_open ops -> y_run ne (y_new o h) ops = Ok (log, s) -> Forall ev_typed log ->
  forall esc parse jp, wjson_ok esc parse -> jparser_ok jp -> forall po cs rs p compact_text, (po_ncompact po = true -> po_sep po <> []) ->
  flat_map pushed cs = map as_push (handed_over log) -> Forall no_pop cs -> names_weight (map as_push (handed_over log)) <= two64 ->
  pk_run esc (pk_new po true) (cs ++ [PPushout]) = Some (rs, p) ->
  Permutation (map as_push (handed_over log)) (flat_map (arrives esc parse jp compact_text) (flat_map batches rs)).
Proof.
  intros ne Hne o Hs h ops log s HO E HT esc parse jp W J po cs rs p ct Ho EQ NP NW R.
  assert (EQ' : flat_map pushed (cs ++ [PPushout]) = map as_push (handed_over log)) by (rewrite flat_map_app, EQ; apply app_nil_r).
  rewrite <- EQ' in NW. pose proof (C38_exactly_once jp J esc po true _ _ _ Ho NW R) as [B P]. rewrite EQ' in *.
  destruct (run_app_inv _ _ _ _ _ _ R) as (rs1 & p1 & rs2 & R1 & R2 & ->). rewrite !flat_map_app in *.
  assert (S0 : stored p = []).
  { cbn [pk_run pk_do] in R2. destruct (pk_pushout esc p1) as [[[k ms] p2]|] eqn:EP; [|discriminate]. injection R2 as <- <-.
    assert (NW1 : names_weight (flat_map pushed cs) <= two64) by (rewrite EQ; exact NW).
    apply (C38_pushout_empties esc po cs rs1 p1 k ms p2 Ho); [|exact R1|exact EP]. destruct (C38_exactly_once jp J esc po true _ _ _ Ho NW1 R1) as [_ P1].
    rewrite EQ in P1. eapply Z.le_trans; [|exact NW]. rewrite (names_weight_perm _ _ P1), !names_weight_app.
    pose proof (names_weight_pos (flat_map (received jp) (flat_map batches rs1))). pose proof (names_weight_pos (flat_map singles rs1)). lia. }
  assert (S1 : flat_map singles rs1 = []) by (eapply no_pop_singles; eauto).
  assert (S2 : flat_map singles rs2 = []) by (eapply no_pop_singles; [|exact R2]; repeat constructor).
  rewrite S0, S1, S2 in P. cbn [app] in P. rewrite !app_nil_r in P.
  assert (TY : forall q, In q (map as_push (handed_over log)) -> push_typed q).
  { intros q Hq. apply in_map_iff in Hq as ((n & d) & <- & Hq).
    assert (I : In d (received_all log)) by (apply handed_received; apply in_map_iff; exists (n, d); auto).
    pose proof (run_records ne Hne o Hs h ops log s HO E HT) as RR. rewrite Forall_forall in RR. destruct (RR d I) as (T & w & g & D).
    apply (delivery_facts ne Hne (rgo_agg o) w g d T D). }
  etransitivity; [exact P|]. rewrite <- !flat_map_app in *. set (bs := flat_map batches (rs1 ++ rs2)) in *. clearbody bs.
  assert (TB : forall b, In b bs -> forall q, In q (received jp b) -> push_typed q).
  { intros b Hb q Hq. apply TY. eapply Permutation_in; [symmetry; exact P|]. apply in_flat_map. eauto. }
  clear - B TB W. induction bs as [|b bs IH]; [constructor|]. inversion B as [|? ? [B1 B2] B3]; subst. cbn [flat_map].
  apply Permutation_app; [|apply IH; auto; intros; eapply TB; eauto; now right].
  unfold arrives. assert (X : read parse (c_mpush ct) (mpush_text esc ct b) mpush0 = (b, true)).
  { rewrite <- (app_nil_r (mpush_text esc ct b)). apply C55_multi_push; [auto| |exact I]. apply Forall_forall. intros q Hq.
    apply (in_map pu_data) in Hq. rewrite B2 in Hq. apply in_map_iff in Hq as (q' & Eq & Hq'). pose proof (TB b (or_introl eq_refl) q' Hq') as T.
    unfold push_typed in *. rewrite <- Eq. exact T. }
  rewrite X. unfold received. destruct (recompact jp b) as [ok m']. cbn in B1. subst ok. reflexivity.
Qed.
Print Assumptions C74_arrives.

(** Nothing measured is lost on the way, nothing is counted twice: under the hypotheses of C68 the counts that arrive under a name add up
    (modulo 2^64) to the counts of the measurements made for it. *)
Theorem C74_counts : forall ne, nth_element_ok ne -> forall o, 0 < so_step (ao_sep (rgo_agg o)) -> rgo_initializer o = false ->
  forall n, n <> [] -> forall ops log s clk log2 s2, fits o (list_sum (map creations ops)) -> Forall (y_public o) ops -> Forall y_open ops ->
  Forall (kept n) ops -> Forall metered ops -> Forall unpopped ops -> forward (so_step (ao_sep (rgo_agg o))) (flat_map (times o n) ops) ->
  y_run ne (y_new o true) ops = Ok (log, s) -> Forall ev_typed log ->
  (forall id sn g, registered (y_reg s) n id sn g -> not_due ne (clk n) g) ->
  y_do ne (YDestroy clk) s = Ok (log2, s2) ->
  forall esc parse jp, wjson_ok esc parse -> jparser_ok jp -> forall po cs rs p compact_text, (po_ncompact po = true -> po_sep po <> []) ->
  flat_map pushed cs = map as_push (handed_over (log ++ log2)) -> Forall no_pop cs -> names_weight (map as_push (handed_over (log ++ log2))) <= two64 ->
  pk_run esc (pk_new po true) (cs ++ [PPushout]) = Some (rs, p) ->
  u64 (sum_count (of_name n (flat_map (arrives esc parse jp compact_text) (flat_map batches rs)))) = u64 (declared (sent n [] log)).
Proof.
  intros ne Hne o Hs Hi n Hn ops log s clk log2 s2 HF HP HO HK HM HU HW E HT HD E2 esc parse jp W J po cs rs p ct Ho EQ NP NW R.
  destruct (C68_complete ne Hne o Hs Hi n Hn ops log s clk log2 s2 HF HP HK HM HW E HT HD E2) as [_ C]. rewrite <- C.
  assert (E3 : y_run ne (y_new o true) (ops ++ [YDestroy clk]) = Ok (log ++ log2, s2)) by (eapply yrun_snoc; eauto).
  assert (T2 : Forall ev_typed (log ++ log2)) by (apply Forall_app; split; [exact HT|]; eapply destroy_typed; eauto).
  assert (O2 : Forall y_open (ops ++ [YDestroy clk])) by (apply Forall_app; split; [exact HO|repeat constructor]).
  pose proof (C74_arrives ne Hne o Hs true _ _ _ O2 E3 T2 esc parse jp W J po cs rs p ct Ho EQ NP NW R) as P.
  rewrite (quiet_got n (log ++ log2)).
  - rewrite (sum_count_perm _ _ (of_name_perm n _ _ P)). reflexivity.
  - eapply quiet_yrun; [|exact E3]. apply Forall_app. split; [exact HU|repeat constructor].
Qed.
Print Assumptions C74_counts.

(** The program of C68, its records packed in batches with compacted names and sent as compact texts. *)
Definition wy_log : list yev := fst (yx_run (yx_ops ++ [YDestroy (fun _ => 118)])).
Definition wy_po : popts := mk_popts 2 0 1000 true (str "~~") true.
Definition wy_calls : list pcall := match map as_push (handed_over wy_log) with a :: b :: l => [PPush a; PPush b; PMultiPop; PMulti l] | _ => [] end.
Example C74_witness : Forall y_open yx_ops /\ Forall unpopped yx_ops /\ Forall no_pop wy_calls /\
  y_run ne_rev (y_new yx_o true) (yx_ops ++ [YDestroy (fun _ => 118)]) = Ok (yx_run (yx_ops ++ [YDestroy (fun _ => 118)])) /\
  flat_map pushed wy_calls = map as_push (handed_over wy_log) /\ names_weight (map as_push (handed_over wy_log)) <= two64 /\
  exists rs p, pk_run esc_std (pk_new wy_po true) (wy_calls ++ [PPushout]) = Some (rs, p) /\ List.length (flat_map batches rs) = 2%nat /\
    let arrived := flat_map (arrives esc_std parse_std jp_std true) (flat_map batches rs) in
    map (fun q => (pu_name q, ad_ts (pu_data q), ad_count (pu_data q), ad_data (pu_data q))) arrived =
      [(nb, 100, 2, [50]); (na, 100, 3, [4; 7]); (na, 110, 1, [5])] /\
    sum_count (of_name na arrived) = 4.
Proof.
  split; [opens|]. split; [opens|]. split; [vm_compute; opens|]. split; [vm_compute; reflexivity|]. split; [vm_compute; reflexivity|].
  split; [vm_compute; discriminate|]. eexists. eexists. split; [vm_compute; reflexivity|]. cbv zeta. split; [vm_compute; reflexivity|]. split; vm_compute; reflexivity.
Qed.
