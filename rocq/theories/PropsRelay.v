(** C75: records that arrive from elsewhere, aggregated again by a multi_aggregator. *)
From Coq Require Import String ZArith List Bool Permutation Lia Arith Ascii.
From Verif Require Import Base SortFacts ModelTypes ModelReducer SpecReducer ModelSeparator SpecSeparator SepSpecProofs SepRun ReducerProofs ListFacts ModelAggregator SpecAggregator AggFinal
  ModelRegistry SpecRegistry ModelComposite ModelMeters ModelSystem SpecSystem
  ModelJson ModelPacker SpecPacker ModelCodec SpecCodec CodecRound PropsPacker PropsCodec RegFinal ModelMulti SpecWire LiftProofs WireProofs SpecMulti MultiRun SpecRelay RelayProofs
  PropsReducer PropsSeparator PropsAggregator PropsRegistry PropsMulti PropsSystem PropsWire.
Import ListNotations.
Local Open Scope Z_scope.
Local Open Scope list_scope.

(** Whatever is pushed under other names, and whatever pushouts are asked for in between: the records of [n], pushed in order of time, all come
    out, each in exactly one record of the receiver; after the final force_pushout the counts agree (modulo 2^64), and every value in a record
    of the receiver is a value of a record pushed. *)
Theorem C75_relay : forall ne, nth_element_ok ne -> forall hash o, (0 < ma_hash o)%nat -> 0 < so_step (ao_sep (ma_agg o)) ->
  forall n ops ord outs m, Forall order_ok (ops ++ [MPushout true true ord]) -> ~ In (MDel n) ops -> Forall fed_typed (fed n ops) ->
  forward (so_step (ao_sep (ma_agg o))) (map fed_time (fed n ops)) ->
  ma_run ne hash (ma_new o) (ops ++ [MPushout true true ord]) = Ok (outs, m) ->
  let seen := SpecMulti.of_name n (flat_map mrecs outs) in
  (exists groups : list (Z * list rop), Permutation (flat_map snd groups) (map OpAddRed (fed n ops)) /\
     Forall2 (fun q d => reported_as ne (so_red (ao_sep (ma_agg o))) (fst q) (snd q) d) groups seen) /\
  u64 (sum_count seen) = u64 (fold_right Z.add 0 (map (fun d => ri_count (rd_info d)) (fed n ops))) /\
  submultiset (flat_map ad_data seen) (flat_map rd_data (fed n ops)).
Proof.
  intros ne Hne hash o Hh Hs n ops ord outs m HO ND TY FW R seen. pose proof (C35_single_map ne hash o _ _ _ Hh HO R) as SR.
  destruct (relay ne Hne (ma_agg o) Hs n ops outs _ true ord SR ND TY FW) as (groups & F & P). fold seen in F. split; [exists groups; auto|]. split.
  - rewrite (wsum_count ne Hne _ _ _ F), (declared_perm _ _ P), declared_red. reflexivity.
  - rewrite <- values_red. pose proof (wsub ne Hne _ _ _ F) as W. eapply submultiset_trans; [exact W|]. exists []. rewrite app_nil_r. now apply values_perm.
Qed.
Print Assumptions C75_relay.

(** The extremes survive too, unless 0 is among them (C13): the least minimum reported is the least minimum pushed, and so for the maximum. *)
Theorem C75_extremes : forall ne, nth_element_ok ne -> forall hash o, (0 < ma_hash o)%nat -> 0 < so_step (ao_sep (ma_agg o)) ->
  forall n ops ord outs m, Forall order_ok (ops ++ [MPushout true true ord]) -> ~ In (MDel n) ops -> Forall fed_typed (fed n ops) ->
  forward (so_step (ao_sep (ma_agg o))) (map fed_time (fed n ops)) ->
  ma_run ne hash (ma_new o) (ops ++ [MPushout true true ord]) = Ok (outs, m) ->
  fed n ops <> [] -> Forall plain_extremes (fed n ops) ->
  let seen := SpecMulti.of_name n (flat_map mrecs outs) in
  exists mn mx, is_min mn (map (fun d => ri_min (rd_info d)) (fed n ops)) /\ is_min mn (map ad_min seen) /\
                is_max mx (map (fun d => ri_max (rd_info d)) (fed n ops)) /\ is_max mx (map ad_max seen).
Proof.
  intros ne Hne hash o Hh Hs n ops ord outs m HO ND TY FW R NE PE seen. pose proof (C35_single_map ne hash o _ _ _ Hh HO R) as SR.
  destruct (relay ne Hne (ma_agg o) Hs n ops outs _ true ord SR ND TY FW) as (groups & F & P). fold seen in F.
  destruct (groups_least ne Hne _ _ _ F) as (L1 & M1 & I1 & I2). destruct (fed_least _ PE TY) as [L2 M2].
  rewrite (least_perm _ _ (extremes_perm _ _ P)), L2 in L1. rewrite (most_perm _ _ (extremes_perm _ _ P)), M2 in M1.
  assert (NS : seen <> []).
  { intros E0. rewrite E0 in F. inversion F; subst. apply Permutation_nil in P. destruct (fed n ops); [auto|discriminate]. }
  assert (T1 : Forall i64 (map (fun d => ri_min (rd_info d)) (fed n ops)) /\ Forall i64 (map (fun d => ri_max (rd_info d)) (fed n ops))).
  { clear - TY PE. induction PE as [|d l (A & B & _) PE IH]; [split; constructor|]. inversion TY as [|? ? T1 T2]; subst. destruct (IH T2). destruct T1 as [T1 _].
    unfold op_extremes in T1. apply Forall_app in T1 as [_ T1]. cbn [filter] in T1. destruct (Z.eqb_spec (ri_min (rd_info d)) 0); [contradiction|].
    destruct (Z.eqb_spec (ri_max (rd_info d)) 0); [contradiction|]. cbn [negb] in T1. inversion T1 as [|? ? X1 X2]; subst. inversion X2; subst.
    split; constructor; auto. }
  destruct T1 as [T1 T2]. eexists _, _. split; [apply PubProofs.fold_min_is; [|exact T1]; destruct (fed n ops); [congruence|discriminate]|].
  split; [rewrite <- L1; apply PubProofs.fold_min_is; [|exact I1]; destruct seen; [congruence|discriminate]|].
  split; [apply PubProofs.fold_max_is; [|exact T2]; destruct (fed n ops); [congruence|discriminate]|].
  rewrite <- M1; apply PubProofs.fold_max_is; [|exact I2]; destruct seen; [congruence|discriminate].
Qed.
Print Assumptions C75_extremes.

(** What one sender contributes (C74). *)
Lemma sender_counts ne esc parse jp n arrived made : nth_element_ok ne -> wjson_ok esc parse -> jparser_ok jp -> n <> [] ->
  sender ne esc parse jp n arrived made ->
  u64 (sum_count (SpecWire.of_name n arrived)) = u64 (declared made) /\ Forall push_typed arrived.
Proof.
  intros Hne W J Hn (o & ops & log & s & clk & log2 & s2 & po & cs & rs & p & ct & Hs & Hi & HF & HP & HO & HK & HM & HU & HW & E & HT & HD & E2 & Ho & EQ & NP & NW & R & -> & ->).
  split; [exact (C74_counts ne Hne o Hs Hi n Hn ops log s clk log2 s2 HF HP HO HK HM HU HW E HT HD E2 esc parse jp W J po cs rs p ct Ho EQ NP NW R)|].
  assert (E3 : y_run ne (y_new o true) (ops ++ [YDestroy clk]) = Ok (log ++ log2, s2)) by (eapply yrun_snoc; eauto).
  assert (T2 : Forall ev_typed (log ++ log2)) by (apply Forall_app; split; [exact HT|]; eapply destroy_typed; eauto).
  assert (O2 : Forall y_open (ops ++ [YDestroy clk])) by (apply Forall_app; split; [exact HO|repeat constructor]).
  pose proof (C74_arrives ne Hne o Hs true _ _ _ O2 E3 T2 esc parse jp W J po cs rs p ct Ho EQ NP NW R) as P.
  apply Forall_forall. intros q Hq. apply (Permutation_in q (Permutation_sym P)) in Hq. apply in_map_iff in Hq as ((k & d) & <- & Hq).
  assert (I : In d (received_all (log ++ log2))) by (apply handed_received; apply in_map_iff; exists (k, d); auto).
  pose proof (run_records ne Hne o Hs true _ _ _ O2 E3 T2) as RR. rewrite Forall_forall in RR. destruct (RR d I) as (T & w & g & D).
  apply (delivery_facts ne Hne (rgo_agg o) w g d T D).
Qed.
Lemma typed_fed p : push_typed p -> fed_typed (reduced_of (pu_data p)).
Proof.
  intros ((_ & B & _ & C & D & _) & _ & G). assert (X : forall z, int64 z -> i64 z) by (unfold int64, i64, i64_min, i64_max; lia).
  split; [|unfold uint64, is_u64, two64 in *; exact B]. unfold op_extremes. apply Forall_app. split; [exact (Forall_impl _ X G)|].
  apply Forall_forall. intros x Hx. apply filter_In in Hx as [[<-|[<-|[]]] _]; auto.
Qed.
Lemma wire_of_name_app n a b : SpecWire.of_name n (a ++ b) = SpecWire.of_name n a ++ SpecWire.of_name n b.
Proof. unfold SpecWire.of_name. apply flat_map_app. Qed.
Lemma sum_red l : fold_right Z.add 0 (map (fun d => ri_count (rd_info d)) (map reduced_of l)) = sum_count l.
Proof. unfold sum_count. rewrite map_map. reflexivity. Qed.
Lemma add_perm a b : Permutation a b -> fold_right Z.add 0 a = fold_right Z.add 0 b.
Proof. induction 1; simpl; lia. Qed.

(** The whole way: any number of programs measure, send what their handlers get, and one receiver pushes the arriving records of [n], in order of
    time, into a multi_aggregator.  The counts it reports for [n] add up (modulo 2^64) to the measurements of all the programs. *)
Theorem C75_end_to_end : forall ne, nth_element_ok ne -> forall esc parse jp, wjson_ok esc parse -> jparser_ok jp -> forall n, n <> [] ->
  forall senders : list (list push * list rop), Forall (fun s => sender ne esc parse jp n (fst s) (snd s)) senders ->
  forall hash o, (0 < ma_hash o)%nat -> 0 < so_step (ao_sep (ma_agg o)) ->
  forall ops ord outs m, Forall order_ok (ops ++ [MPushout true true ord]) -> ~ In (MDel n) ops ->
  Permutation (fed n ops) (map reduced_of (SpecWire.of_name n (flat_map fst senders))) ->
  forward (so_step (ao_sep (ma_agg o))) (map fed_time (fed n ops)) ->
  ma_run ne hash (ma_new o) (ops ++ [MPushout true true ord]) = Ok (outs, m) ->
  u64 (sum_count (SpecMulti.of_name n (flat_map mrecs outs))) = u64 (declared (flat_map snd senders)).
Proof.
  intros ne Hne esc parse jp W J n Hn senders SS hash o Hh Hs ops ord outs m HO ND P FW R.
  assert (X : u64 (sum_count (SpecWire.of_name n (flat_map fst senders))) = u64 (declared (flat_map snd senders)) /\ Forall push_typed (flat_map fst senders)).
  { clear - Hne W J Hn SS. induction SS as [|[arr made] l H F [IH1 IH2]]; [split; [reflexivity|constructor]|]. cbn [flat_map fst snd] in *.
    destruct (sender_counts _ _ _ _ _ _ _ Hne W J Hn H) as [C T]. split; [|apply Forall_app; auto].
    rewrite wire_of_name_app, declared_app. unfold sum_count in *. rewrite map_app.
    assert (FA : forall a b, fold_right Z.add 0 (a ++ b) = fold_right Z.add 0 a + fold_right Z.add 0 b) by (clear; induction a; intros; simpl; rewrite ?IHa; lia).
    rewrite FA. unfold u64 in *. rewrite Z.add_mod, C, IH1, <- Z.add_mod by (unfold two64; lia). reflexivity. }
  destruct X as [XC XT].
  assert (TY : Forall fed_typed (fed n ops)).
  { apply Forall_forall. intros d Hd. apply (Permutation_in d P) in Hd. apply in_map_iff in Hd as (a & <- & Ha). unfold SpecWire.of_name in Ha.
    apply in_flat_map in Ha as (q & Hq & Ha). destruct (name_eqb (pu_name q) n); [|contradiction]. destruct Ha as [<-|[]]. apply typed_fed.
    rewrite Forall_forall in XT. auto. }
  destruct (C75_relay ne Hne hash o Hh Hs n ops ord outs m HO ND TY FW R) as (_ & C & _). rewrite C, <- XC, <- sum_red. f_equal.
  apply add_perm, Permutation_map, P.
Qed.
Print Assumptions C75_end_to_end.

(** Two programs measure under "a"; the second takes three values.  The receiver pushes what arrives, sorted by time, and a record for "b". *)
Definition vx_ops : list yop :=
  [YMeterName rx_e na 102; YPt (MNew KValue (Some 0%nat) 1 9 0 0 0 0) no_clk; YPt (ModelMeters.MPush 0 107 0) no_clk; YPt (ModelMeters.MPush 0 111 0) no_clk;
   YPt (MNew KValue (Some 0%nat) 2 3 0 0 0 0) no_clk; YPt (ModelMeters.MPush 1 113 0) no_clk].
Definition arr_of (ops : list yop) (clk : Z) (po : popts) : list push :=
  match pk_run esc_std (pk_new po true) ([PMulti (map as_push (handed_over (fst (yx_run (ops ++ [YDestroy (fun _ => clk)])))))] ++ [PPushout]) with
  | Some (rs, _) => flat_map (arrives esc_std parse_std jp_std true) (flat_map batches rs)
  | None => []
  end.
Definition vx_po : popts := mk_popts 0 0 1000 false [] false.
Definition vx_senders : list (list push * list rop) :=
  [(arr_of yx_ops 118 wy_po, sent na [] (fst (yx_run yx_ops))); (arr_of vx_ops 118 vx_po, sent na [] (fst (yx_run vx_ops)))].
Definition vx_arr : list rdata := map reduced_of (SpecWire.of_name na (flat_map fst vx_senders)).
Definition vx_feed : list mop :=
  match vx_arr with
  | [a; b; c; d] => [MPush mx_e na a true; MPush mx_e nb a true; MMulti [(mx_e, (na, d)); (mx_e, (nb, b)); (mx_e, (na, b))] true; MPushout false true (fun l => l); MPush mx_e na c true]
  | _ => []
  end.
Ltac vx_sender o ops clk po :=
  let log := constr:(fst (yx_run ops)) in let s := constr:(snd (yx_run ops)) in
  let d := eval vm_compute in (y_do ne_rev (YDestroy (fun _ => clk)) s) in
  exists o, ops, log, s, (fun _ => clk);
  match d with Ok (?l2, ?s2) =>
    exists l2, s2, po, [PMulti (map as_push (handed_over (log ++ l2)))];
    let r := eval vm_compute in (pk_run esc_std (pk_new po true) ([PMulti (map as_push (handed_over (log ++ l2)))] ++ [PPushout])) in
    match r with Some (?rs, ?p) => exists rs, p, true end
  end;
  split; [reflexivity|]; split; [reflexivity|]; split; [unfold fits; vm_compute; repeat split; congruence|];
  split; [repeat (constructor; [first [exact I | split; [reflexivity|vm_compute; split; congruence]]|]); constructor|];
  split; [opens|]; split; [repeat (constructor; [first [exact I | reflexivity]|]); constructor|]; split; [repeat (constructor; [first [exact I | reflexivity]|]); constructor|];
  split; [opens|]; split; [vm_compute; repeat split; congruence|]; split; [vm_compute; reflexivity|];
  split; [match goal with |- Forall _ ?l => let v := eval vm_compute in l in change l with v end; repeat (apply Forall_cons; [exact I || in_range|]); constructor|];
  split; [intros id sn g (_ & _ & pos & E); apply RegFinal.get_some, nth_error_In in E; vm_compute in E;
    repeat (destruct E as [E|E]; [try discriminate E; injection E as _ <-; exists []; vm_compute; reflexivity|]); destruct E|];
  split; [vm_compute; reflexivity|]; split; [discriminate|]; split; [vm_compute; reflexivity|]; split; [opens|]; split; [vm_compute; discriminate|];
  split; [vm_compute; reflexivity|]; split; vm_compute; reflexivity.
Example C75_witness : Forall (fun s => sender ne_rev esc_std parse_std jp_std na (fst s) (snd s)) vx_senders /\
  Permutation (fed na vx_feed) vx_arr /\ forward 10 (map fed_time (fed na vx_feed)) /\ ~ In (MDel na) vx_feed /\
  Forall order_ok (vx_feed ++ [MPushout true true (fun l => l)]) /\ Forall plain_extremes (fed na vx_feed) /\ declared (flat_map snd vx_senders) = 8 /\
  exists outs m, ma_run ne_rev mx_hash (ma_new mx_o) (vx_feed ++ [MPushout true true (fun l => l)]) = Ok (outs, m) /\
    map (fun d => (ad_ts d, ad_count d, ad_min d, ad_max d, ad_data d)) (SpecMulti.of_name na (flat_map mrecs outs)) =
      [(100, 4, 4, 9, [4; 7; 9]); (110, 4, 3, 9, [3; 5; 9])].
Proof.
  split. { apply Forall_cons; [vx_sender yx_o yx_ops 118 wy_po|]. apply Forall_cons; [vx_sender yx_o vx_ops 118 vx_po|]. constructor. }
  split. { vm_compute. apply perm_skip. etransitivity; [apply perm_swap|]. apply perm_skip, perm_swap. }
  split; [vm_compute; repeat split; congruence|]. split; [vm_compute; intuition discriminate|].
  split; [vm_compute; repeat (constructor; [first [exact I | intros l; apply Permutation_refl]|]); constructor|].
  split; [vm_compute; repeat (constructor; [repeat split; try discriminate; repeat constructor; discriminate|]); constructor|].
  split; [vm_compute; reflexivity|]. eexists _, _. split; [vm_compute; reflexivity|]. vm_compute. reflexivity.
Qed.
