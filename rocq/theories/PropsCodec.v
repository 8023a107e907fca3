(** Properties C54 (option persistence) and C55 (codecs of the requests). *)
From Coq Require Import String Ascii ZArith NArith List Bool Lia.
From Verif Require Import Base ModelTypes ModelReducer ModelSeparator ModelAggregator ModelRegistry ModelJson ModelPacker SpecPacker PackName PropsPacker
  ModelCodec SpecCodec CodecProofs CodecRound.
Import ListNotations.
Local Open Scope Z_scope.
Local Open Scope list_scope.

(** * Specification *)
(** The options that are written, and those that are not. *)
Definition persisted (o : wopts) :=
  let a := rgo_agg (wo_rg o) in let s := ao_sep a in
  (o_limit (so_red s), o_levels (so_red s), so_step s, so_soiled s, so_res s, ao_out a, wo_pool o).
Definition not_persisted (o : wopts) :=
  let r := so_red (ao_sep (rgo_agg (wo_rg o))) in (o_mode r, o_initial r, rgo_init (wo_rg o), rgo_step (wo_rg o), rgo_initializer (wo_rg o), wo_handler o).
Definition blank (s : name) : Prop := Forall (fun c => In (nat_of_ascii c) [32; 9; 10; 13]%nat) s.
(** The text of a JSON object with the given members, in this order. *)
Definition object_text (esc : name -> name) (l : list (name * json)) : name := jprint esc (JObj l).
Definition plain_keys (l : list (name * json)) : Prop := keys_plain (JObj l) = true.
Definition named (l : list (name * json)) (k : string) : bool := existsb (fun p => name_eqb (fst p) (str k)) l.
(** The value of an option after reading an object: from the object, if it is named there. *)
Definition choose {A} (l : list (name * json)) (k : string) (a b : A) : A := if named l k then a else b.
Definition option_names : list name :=
  map str ["reducer_limit"; "reducer_levels"; "aggregation_step_ts"; "soiled_start_ts"; "resolution"; "outgoing_reduced_size"; "pool_size"]%string.
(** [l] has all of the members [fields], and no other value for one of their names; other names may occur *)
Definition carries (l fields : list (name * json)) : Prop :=
  incl fields l /\ forall k j, In (k, j) l -> In k (map fst fields) -> In (k, j) fields.

(* ---- proof ---- *)
Section Text.
  Variable esc : name -> name.
  Variable parse : name -> option json.
  Hypothesis W : wjson_ok esc parse.

  Lemma read_json {A} (c : codec A) j rest t : keys_plain j = true -> no_digit rest -> read parse c (jprint esc j ++ rest) t = c_dec c j t.
  Proof. intros K N. unfold read. rewrite W by assumption. reflexivity. Qed.
  Lemma keys_nums l : forallb keys_plain (map JNum l) = true.
  Proof. induction l; [reflexivity|assumption]. Qed.
  Lemma keys_strs l : forallb keys_plain (map JStr l) = true.
  Proof. induction l; [reflexivity|assumption]. Qed.
  Lemma keys_push compact p : keys_plain (c_enc (c_push compact) p) = true.
  Proof. destruct compact; cbn -[plain_char]; rewrite keys_nums; reflexivity. Qed.
  Lemma keys_mpush compact m : keys_plain (c_enc (c_mpush compact) m) = true.
  Proof.
    assert (L : forall l, forallb keys_plain (map (c_enc (c_push compact)) l) = true).
    { induction l as [|p l IH]; [reflexivity|]. cbn [map forallb]. rewrite keys_push, IH. reflexivity. }
    destruct compact; cbn -[plain_char c_push]; rewrite keys_strs, L; reflexivity.
  Qed.
  Lemma keys_del compact l : keys_plain (c_enc (c_del compact) l) = true.
  Proof. destruct compact; cbn -[plain_char]; rewrite keys_strs; reflexivity. Qed.
  Lemma skip_blank ws s : blank ws -> skip_ws (ws ++ s) = skip_ws s.
  Proof.
    induction 1 as [|c ws H B IH]; [reflexivity|]. cbn [app skip_ws]. assert (E : is_space c = true) by (unfold is_space; destruct H as [H|[H|[H|[H|[]]]]]; rewrite <- H; reflexivity).
    rewrite E. exact IH.
  Qed.
  Lemma load_object fs ws l rest o : blank ws -> plain_keys l -> no_digit rest ->
    load parse fs (ws ++ object_text esc l ++ rest) o = let '(o1, ok) := obj_dec true wopts_members l o in (ok, o1).
  Proof.
    intros B K N. unfold load. rewrite skip_blank by exact B. unfold object_text.
    replace (skip_ws (jprint esc (JObj l) ++ rest)) with (jprint esc (JObj l) ++ rest) by reflexivity.
    replace (is_object (jprint esc (JObj l) ++ rest)) with true by reflexivity. rewrite read_json by assumption. reflexivity.
  Qed.
  Lemma load_file fs path text o : is_object (skip_ws path) = false -> fs path = Some text ->
    load parse fs path o = let '(o1, ok) := read parse c_wopts text o in (ok, o1).
  Proof. intros E F. unfold load. rewrite E, F. reflexivity. Qed.
End Text.
Lemma wopts_keys : map m_key wopts_members = map str ["reducer_limit"; "reducer_levels"; "aggregation_step_ts"; "soiled_start_ts"; "resolution"; "outgoing_reduced_size"; "pool_size"]%string.
Proof. reflexivity. Qed.
Lemma keys_wopts o : plain_keys (pairs wopts_members o).
Proof. reflexivity. Qed.
Lemma pair_eq {A B} (a a' : A) (b b' : B) : a = a' -> b = b' -> (a, b) = (a', b').
Proof. congruence. Qed.
Lemma if_size (b : bool) x y z : JNum (Z.of_nat x) = (if b then JNum (Z.of_nat y) else JNum (Z.of_nat z)) -> x = if b then y else z.
Proof. destruct b; intros E; injection E as E; apply Nat2Z.inj; exact E. Qed.
Lemma if_num (b : bool) x y z : JNum x = (if b then JNum y else JNum z) -> x = if b then y else z.
Proof. destruct b; intros E; injection E as E; exact E. Qed.
Lemma if_res (b : bool) x y z : JStr (res_text x) = (if b then JStr (res_text y) else JStr (res_text z)) -> x = if b then y else z.
Proof. destruct b; intros E; injection E as E; apply res_text_inj; exact E. Qed.
Lemma wopts_mix o l : wopts_typed o -> incl l (pairs wopts_members o) -> forall o0, exists o1,
  obj_dec true wopts_members l o0 = (o1, true) /\ not_persisted o1 = not_persisted o0 /\
  persisted o1 =
   (let a x := rgo_agg (wo_rg x) in let s x := ao_sep (a x) in let r x := so_red (s x) in
    (choose l "reducer_limit" (o_limit (r o)) (o_limit (r o0)), choose l "reducer_levels" (o_levels (r o)) (o_levels (r o0)),
     choose l "aggregation_step_ts" (so_step (s o)) (so_step (s o0)), choose l "soiled_start_ts" (so_soiled (s o)) (so_soiled (s o0)),
     choose l "resolution" (so_res (s o)) (so_res (s o0)), choose l "outgoing_reduced_size" (ao_out (a o)) (ao_out (a o0)),
     choose l "pool_size" (wo_pool o) (wo_pool o0))).
Proof.
  intros T I o0. destruct (obj_mix wopts_typed wrest _ wopts_sets wopts_uniq true o l T) with (t := o0) as (o1 & D & R & Q).
  { apply Forall_forall. intros p H. left. apply I in H. apply in_map_iff in H. destruct H as (m & E & H). eauto. }
  exists o1. split; [exact D|]. split; [exact R|]. clear - Q. unfold persisted. cbv zeta. unfold choose, named. fold (has l).
  unfold wopts_members, aopts_members, sopts_members, ropts_members in Q. cbn [base map app field m_enc m_key c_size c_i64 c_res c_enc] in Q.
  repeat match goal with Q : Forall _ (_ :: _) |- _ => let E := fresh "E" in apply Forall_cons_iff in Q; destruct Q as [E Q] end.
  repeat apply pair_eq; first [eapply if_size; eassumption|eapply if_num; eassumption|eapply if_res; eassumption].
Qed.
Lemma pairs_in o : incl (pairs wopts_members o) (pairs wopts_members o).
Proof. apply incl_refl. Qed.
Lemma wopts_rt o : wopts_typed o -> forall o0, exists o1,
  obj_dec true wopts_members (pairs wopts_members o) o0 = (o1, true) /\ persisted o1 = persisted o /\ not_persisted o1 = not_persisted o0.
Proof. intros T o0. destruct (wopts_mix o _ T (pairs_in o) o0) as (o1 & D & R & Q). exists o1. repeat split; assumption. Qed.
Lemma obj_strict {T} (ms : list (member T)) k : ~ In k (map m_key ms) -> forall l t, In k (map fst l) -> snd (obj_dec true ms l t) = false.
Proof.
  intros N. induction l as [|[k' j] l IH]; [intros ? []|]. intros t I. cbn [obj_dec map fst] in *.
  destruct (find (fun m => name_eqb (m_key m) k') ms) as [m|] eqn:E; [|reflexivity]. destruct (m_dec m j t) as [t1 []]; [|reflexivity].
  destruct I as [->|I]; [|apply IH; exact I]. apply find_some in E. destruct E as [I E]. apply name_eqb_eq in E. destruct N. rewrite <- E. apply in_map. exact I.
Qed.
Lemma carries_from {T} (ms : list (member T)) strict a l : (forall m m', In m ms -> In m' ms -> m_key m = m_key m' -> m = m') -> strict = false ->
  carries l (pairs ms a) -> from ms strict a l /\ (forall m, In m ms -> has l (m_key m) = true).
Proof.
  intros U -> [I1 I2]. split.
  - apply Forall_forall. intros [k j] H. destruct (in_dec (list_eq_dec ascii_dec) k (map m_key ms)) as [K|K].
    + left. specialize (I2 k j H). assert (X : In k (map fst (pairs ms a))). { unfold pairs. rewrite map_map. exact K. }
      apply I2 in X. apply in_map_iff in X. destruct X as (m & E & X). eauto.
    + right. split; [reflexivity|]. intros m M E. cbn in E. apply K. rewrite <- E. apply in_map. exact M.
  - intros m M. apply existsb_exists. exists (m_key m, m_enc m a). split; [|apply name_eqb_refl]. apply I1. apply in_map_iff. eauto.
Qed.

(** * Properties *)
(** ** C54 *)
(** Loading what serialize_options wrote, from the argument itself or from a file, succeeds and restores the seven written
    options; all other options keep the value they had in the target.
    Partial: the property asks for all options, see C54_lost_refuted. *)
Theorem C54_round_trip_partial : forall esc parse, wjson_ok esc parse -> forall o o0 fs ws rest path,
  wopts_typed o -> blank ws -> no_digit rest ->
  is_object (skip_ws path) = false -> fs path = Some (serialize_options esc o ++ rest) ->
  exists o1, load parse fs (ws ++ serialize_options esc o ++ rest) o0 = (true, o1) /\ load parse fs path o0 = (true, o1) /\
    persisted o1 = persisted o /\ not_persisted o1 = not_persisted o0.
Proof.
  intros esc parse W o o0 fs ws rest path T B N P F. destruct (wopts_rt o T o0) as (o1 & D & E1 & E2). exists o1. split; [|split; [|auto]].
  - change (serialize_options esc o) with (object_text esc (pairs wopts_members o)). rewrite (load_object esc parse W) by auto using keys_wopts. rewrite D. reflexivity.
  - rewrite (load_file parse fs path _ o0 P F). unfold serialize_options, write. rewrite (read_json esc parse W c_wopts) by auto using (keys_wopts o).
    cbn [c_wopts c_object c_dec c_enc]. rewrite D. reflexivity.
Qed.
Print Assumptions C54_round_trip_partial.

(** In particular options that differ from the defaults in the written options only survive unchanged. *)
Theorem C54_lossless : forall esc parse, wjson_ok esc parse -> forall o fs, wopts_typed o -> not_persisted o = not_persisted wopts0 ->
  load_options parse fs (serialize_options esc o) = o.
Proof.
  intros esc parse W o fs T E. unfold load_options. pose proof (load_object esc parse W fs [] (pairs wopts_members o) [] wopts0 (Forall_nil _) (keys_wopts o) I) as L.
  rewrite app_nil_r in L. cbn [app] in L. change (object_text esc (pairs wopts_members o)) with (serialize_options esc o) in L. rewrite L.
  destruct (wopts_rt o T wopts0) as (o1 & D & E1 & E2). rewrite D. rewrite <- E in E2.
  destruct o as [[[[[] ? ? ?] ?] ? ? ?] ? ?], o1 as [[[[[] ? ? ?] ?] ? ? ?] ? ?]. unfold persisted, not_persisted in *. cbn in E1, E2. congruence.
Qed.
Print Assumptions C54_lossless.

Definition wopts1 : wopts :=
  mk_wopts (mk_rgopts (mk_aopts (mk_sopts (mk_ropts 7 3 Sorting Nth) (-5) RNanos 9) 2) 100 (-2) false) 4 false.
(** A non-trivial case, through the concrete printer and parser of SpecCodec. *)
Example C54_witness : wopts_typed wopts1 /\
  serialize_options esc_std (mk_wopts (mk_rgopts (rgo_agg (wo_rg wopts1)) 0 1 false) 4 false) =
    str "{""reducer_limit"":7,""reducer_levels"":3,""aggregation_step_ts"":-5,""soiled_start_ts"":9,""resolution"":""nanoseconds"",""outgoing_reduced_size"":2,""pool_size"":4}" /\
  load parse_std (fun _ => None) (str "  " ++ serialize_options esc_std wopts1) wopts0 =
    (true, mk_wopts (mk_rgopts (mk_aopts (mk_sopts (mk_ropts 7 3 Adapt Adapt) (-5) RNanos 9) 2) 0 1 false) 4 false) /\
  wjson_ok esc_std parse_std.
Proof.
  split; [|split; [vm_compute; reflexivity|split; [vm_compute; reflexivity|exact parse_std_ok]]].
  unfold wopts_typed, aopts_typed, uint64, int64. change two64 with 18446744073709551616. change (2 ^ 63) with 9223372036854775808. cbn. lia.
Qed.

(** The modes of the reducer and the identifiers of the registry are lost, however the JSON library is implemented. *)
Theorem C54_lost_refuted : forall esc parse, wjson_ok esc parse -> forall fs,
  let o := load_options parse fs (serialize_options esc wopts1) in
  o_mode (so_red (ao_sep (rgo_agg (wo_rg o)))) = Adapt /\ o_mode (so_red (ao_sep (rgo_agg (wo_rg wopts1)))) = Sorting /\
  rgo_init (wo_rg o) = 0 /\ rgo_init (wo_rg wopts1) = 100 /\ rgo_step (wo_rg o) = 1 /\ rgo_step (wo_rg wopts1) = -2.
Proof.
  intros esc parse W fs o. unfold o. unfold load_options.
  pose proof (load_object esc parse W fs [] (pairs wopts_members wopts1) [] wopts0 (Forall_nil _) (keys_wopts _) I) as L. rewrite app_nil_r in L. cbn [app] in L.
  change (object_text esc (pairs wopts_members wopts1)) with (serialize_options esc wopts1) in L. rewrite L.
  repeat split; vm_compute; reflexivity.
Qed.
Print Assumptions C54_lost_refuted.

(** An object that names some of the options, in any order, sets exactly these. *)
Theorem C54_some_options : forall esc parse, wjson_ok esc parse -> forall o o0 fs ws rest fields l,
  wopts_typed o -> c_enc c_wopts o = JObj fields -> incl l fields -> blank ws -> no_digit rest ->
  exists o1, load parse fs (ws ++ object_text esc l ++ rest) o0 = (true, o1) /\ not_persisted o1 = not_persisted o0 /\
    persisted o1 =
     (let a x := rgo_agg (wo_rg x) in let s x := ao_sep (a x) in let r x := so_red (s x) in
      (choose l "reducer_limit" (o_limit (r o)) (o_limit (r o0)), choose l "reducer_levels" (o_levels (r o)) (o_levels (r o0)),
       choose l "aggregation_step_ts" (so_step (s o)) (so_step (s o0)), choose l "soiled_start_ts" (so_soiled (s o)) (so_soiled (s o0)),
       choose l "resolution" (so_res (s o)) (so_res (s o0)), choose l "outgoing_reduced_size" (ao_out (a o)) (ao_out (a o0)),
       choose l "pool_size" (wo_pool o) (wo_pool o0))).
Proof.
  intros esc parse W o o0 fs ws rest fields l T E I B N. cbn [c_wopts c_object c_enc] in E. injection E as <-.
  destruct (wopts_mix o l T I o0) as (o1 & D & R & Q). exists o1. split; [|split; assumption].
  rewrite (load_object esc parse W); auto; [rewrite D; reflexivity|]. unfold plain_keys. cbn [keys_plain]. apply forallb_forall. intros p H. apply I in H.
  pose proof (keys_wopts o) as K. unfold plain_keys in K. cbn [keys_plain] in K. rewrite forallb_forall in K. apply K. exact H.
Qed.
Print Assumptions C54_some_options.

Example C54_some_witness : exists l fields, c_enc c_wopts wopts1 = JObj fields /\ incl l fields /\ named l "pool_size" = true /\ named l "reducer_limit" = false /\
  object_text esc_std l = str "{""pool_size"":4,""resolution"":""nanoseconds""}" /\
  load parse_std (fun _ => None) (object_text esc_std l) wopts0 =
   (true, mk_wopts (mk_rgopts (mk_aopts (mk_sopts (mk_ropts (Z.to_nat 4096) (Z.to_nat 256) Adapt Adapt) 1 RNanos 0) (Z.to_nat 128)) 0 1 false) 4 false).
Proof.
  exists [(str "pool_size", JNum 4); (str "resolution", JStr (str "nanoseconds"))]. eexists. split; [reflexivity|]. split.
  { intros p [<-|[<-|[]]]; vm_compute; tauto. }
  split; [reflexivity|]. split; [reflexivity|]. split; [vm_compute; reflexivity|]. vm_compute. reflexivity.
Qed.

(** An object with a name that is not an option is refused; the version that returns the options then gives the defaults.
    A file that cannot be read is refused and nothing is changed. *)
Theorem C54_refused : forall esc parse, wjson_ok esc parse -> forall fs arg o0 k,
  (exists ws l rest, arg = ws ++ object_text esc l ++ rest /\ blank ws /\ plain_keys l /\ no_digit rest /\ In k (map fst l) /\ ~ In k option_names) ->
  fst (load parse fs arg o0) = false /\ load_options parse fs arg = wopts0.
Proof.
  intros esc parse W fs arg o0 k (ws & l & rest & -> & B & K & N & I & NI). change option_names with (map m_key wopts_members) in NI. unfold load_options.
  rewrite !(load_object esc parse W) by assumption. pose proof (obj_strict wopts_members k NI l o0 I) as X. pose proof (obj_strict wopts_members k NI l wopts0 I) as Y.
  destruct (obj_dec true wopts_members l o0) as [? []]; [discriminate|]. destruct (obj_dec true wopts_members l wopts0) as [? []]; [discriminate|]. split; reflexivity.
Qed.
Print Assumptions C54_refused.
Theorem C54_no_file : forall parse fs path o, is_object (skip_ws path) = false -> fs path = None ->
  load parse fs path o = (false, o) /\ load_options parse fs path = wopts0.
Proof. intros parse fs path o E F. unfold load_options, load. rewrite E, F. split; reflexivity. Qed.
Print Assumptions C54_no_file.
(** The values load_options returns for the options that the text does not name, and for all of them if it refuses the text: those in the headers
    reducer_options.hpp:14-19, separator_options.hpp:11-17, aggregator_options.hpp:10, registry_options.hpp:14-18 in wrtstat/aggregator/options. *)
Theorem C54_defaults : forall esc parse, wjson_ok esc parse -> forall o fs ws rest fields l,
  wopts_typed o -> c_enc c_wopts o = JObj fields -> incl l fields -> blank ws -> no_digit rest ->
  let r := load_options parse fs (ws ++ object_text esc l ++ rest) in
  let a := rgo_agg (wo_rg o) in let s := ao_sep a in
  persisted r = (choose l "reducer_limit" (o_limit (so_red s)) (Z.to_nat 4096), choose l "reducer_levels" (o_levels (so_red s)) (Z.to_nat 256),
    choose l "aggregation_step_ts" (so_step s) 1, choose l "soiled_start_ts" (so_soiled s) 0, choose l "resolution" (so_res s) RSeconds,
    choose l "outgoing_reduced_size" (ao_out a) (Z.to_nat 128), choose l "pool_size" (wo_pool o) 0%nat) /\
  not_persisted r = (Adapt, Adapt, 0, 1, false, false).
Proof.
  intros esc parse W o fs ws rest fields l T E I B N. cbv zeta. destruct (C54_some_options esc parse W o wopts0 fs ws rest fields l T E I B N) as (o1 & L & Q & P).
  unfold load_options. rewrite L. split; [exact P|exact Q].
Qed.
Print Assumptions C54_defaults.
Theorem C54_defaults_refused : forall parse fs arg, fst (load parse fs arg wopts0) = false ->
  persisted (load_options parse fs arg) = (Z.to_nat 4096, Z.to_nat 256, 1, 0, RSeconds, Z.to_nat 128, 0%nat) /\
  not_persisted (load_options parse fs arg) = (Adapt, Adapt, 0, 1, false, false).
Proof. intros parse fs arg E. unfold load_options. destruct (load parse fs arg wopts0) as [b o1]. cbn [fst] in E. subst b. split; reflexivity. Qed.
Print Assumptions C54_defaults_refused.
(** C54_some_witness meets the hypotheses of the first; here is a text for the second. *)
Example C54_defaults_witness : fst (load parse_std (fun _ => None) (str "{""pool_size"":4,""poolsize"":4}") wopts0) = false.
Proof. vm_compute. reflexivity. Qed.

(** The version that writes to a pointer is not atomic: a refused text may have changed the target. *)
Theorem C54_atomic_refuted : exists text o1, load parse_std (fun _ => None) text wopts0 = (false, o1) /\ persisted o1 <> persisted wopts0 /\
  text = str "{""pool_size"":4,""reducer_mode"":""sorting""}".
Proof.
  eexists _, (mk_wopts (wo_rg wopts0) 4 false). split; [|split; [|reflexivity]]; [vm_compute; reflexivity|]. intros E. injection E. discriminate.
Qed.
Print Assumptions C54_atomic_refuted.

(** The other options with a codec: the packer's survive completely; of the multi_aggregator's the two modes are lost. *)
Theorem C54_packer_options : forall esc parse, wjson_ok esc parse -> forall o o0 rest, popts_typed o -> no_digit rest ->
  read parse c_popts (write esc c_popts o ++ rest) o0 = (o, true).
Proof.
  intros esc parse W o o0 rest T N. unfold write. rewrite (read_json esc parse W) by (reflexivity || exact N).
  destruct (object_rt popts_typed (fun _ => tt) _ popts_sets popts_uniq false o T o0) as (t & D & _ & Q). unfold c_popts. rewrite D. f_equal.
  apply Forall_map_eq in Q. destruct o, t. cbn in Q. congruence.
Qed.
Print Assumptions C54_packer_options.
Theorem C54_multi_aggregator_options_partial : forall esc parse, wjson_ok esc parse -> forall o o0 rest, maopts_typed o -> no_digit rest ->
  let keep := so_red (ao_sep (mo_agg o0)) in let s := ao_sep (mo_agg o) in
  read parse c_maopts (write esc c_maopts o ++ rest) o0 =
   (mk_maoptions (mk_aopts (mk_sopts (mk_ropts (o_limit (so_red s)) (o_levels (so_red s)) (o_mode keep) (o_initial keep)) (so_step s) (so_res s) (so_soiled s)) (ao_out (mo_agg o)))
      (mo_pool o) (mo_hash o), true).
Proof.
  intros esc parse W o o0 rest T N keep s. unfold write. rewrite (read_json esc parse W) by (reflexivity || exact N).
  destruct (object_rt maopts_typed marest _ maopts_sets maopts_uniq true o T o0) as (t & D & R & Q). unfold c_maopts. rewrite D. f_equal.
  apply Forall_map_eq in Q. unfold keep, s. destruct o as [[[[] ? ? ?] ?] ? ?], t as [[[[] ? ? ?] ?] ? ?], o0 as [[[[] ? ? ?] ?] ? ?]. unfold marest in R. cbn in R. injection R as -> ->.
  cbn -[Z.of_nat res_text] in Q. injection Q as Q1 Q2 -> -> Q5 Q6 Q7 Q8. apply Nat2Z.inj in Q1, Q2, Q6, Q7, Q8. apply res_text_inj in Q5. subst. reflexivity.
Qed.
Print Assumptions C54_multi_aggregator_options_partial.

(** ** C55 *)
(** Each form of a record, followed by anything that is not a digit, is read back, into any target. *)
Theorem C55_push : forall esc parse, wjson_ok esc parse -> forall compact p t rest, push_typed p -> no_digit rest ->
  read parse (c_push compact) (push_text esc compact p ++ rest) t = (p, true).
Proof.
  intros esc parse W compact p t rest T N. unfold push_text. rewrite <- enc_push. rewrite (read_json esc parse W) by auto using keys_push. apply rt_push. exact T.
Qed.
Print Assumptions C55_push.
Theorem C55_multi_push : forall esc parse, wjson_ok esc parse -> forall compact m t rest, Forall push_typed (mp_data m) -> no_digit rest ->
  read parse (c_mpush compact) (mpush_text esc compact m ++ rest) t = (m, true).
Proof.
  intros esc parse W compact m t rest T N. unfold mpush_text. rewrite <- enc_mpush. rewrite (read_json esc parse W) by auto using keys_mpush. apply rt_mpush. exact T.
Qed.
Print Assumptions C55_multi_push.

Definition pz : push := mk_push (str "a ""b"" \") (mk_adata (mk_rinfo (-3) 18446744073709551615 2 (-9223372036854775808) 9223372036854775807 5) (mk_perc 1 2 3 4 5) [6; -7; 0]).
Lemma pz_typed : push_typed pz.
Proof.
  unfold push_typed, info_typed, perc_typed, int64, uint64. change two64 with 18446744073709551616. change (2 ^ 63) with 9223372036854775808. cbn.
  split; [lia|split; [lia|]]. repeat constructor; lia.
Qed.
Example C55_witness : push_typed pz /\ no_digit (str ", x") /\
  push_text esc_std true pz = str "[""a \""b\"" \\"",-3,5,18446744073709551615,1,2,3,4,5,-9223372036854775808,9223372036854775807,2,[6,-7,0]]" /\
  mpush_text esc_std false (mk_mpush (str "~") [str "l"] []) = str "{""sep"":""~"",""legend"":[""l""],""data"":[]}" /\
  read parse_std (c_mpush true) (mpush_text esc_std true (mk_mpush (str "~") [str "l"; []] [pz; push0; pz]) ++ str ", x") (mk_mpush [] [[]] [pz]) =
    (mk_mpush (str "~") [str "l"; []] [pz; push0; pz], true).
Proof. split; [exact pz_typed|]. split; [reflexivity|]. split; [vm_compute; reflexivity|]. split; [vm_compute; reflexivity|]. vm_compute. reflexivity. Qed.

(** The members of the object forms may come in any order, repeated, and among unknown ones. *)
Theorem C55_any_order : forall esc parse, wjson_ok esc parse -> forall p t rest fields l,
  push_typed p -> jpush p = JObj fields -> carries l fields -> plain_keys l -> no_digit rest ->
  read parse (c_push false) (object_text esc l ++ rest) t = (p, true).
Proof.
  intros esc parse W p t rest fields l T E C K N. unfold object_text. rewrite (read_json esc parse W) by assumption. cbn [c_push c_object c_dec].
  change (jpush p) with (JObj (pairs (push_members false) p)) in E. injection E as <-.
  destruct (carries_from (push_members false) false p l (push_uniq false) eq_refl C) as [F A]. apply push_from; assumption.
Qed.
Print Assumptions C55_any_order.
Theorem C55_multi_any_order : forall esc parse, wjson_ok esc parse -> forall m t rest fields l,
  Forall push_typed (mp_data m) -> jmpush m = JObj fields -> carries l fields -> plain_keys l -> no_digit rest ->
  read parse (c_mpush false) (object_text esc l ++ rest) t = (m, true).
Proof.
  intros esc parse W m t rest fields l T E C K N. unfold object_text. rewrite (read_json esc parse W) by assumption. cbn [c_mpush c_object c_dec].
  rewrite <- (enc_mpush false) in E. cbn [c_enc c_mpush c_object] in E. injection E as <-.
  destruct (carries_from (mpush_members false) false m l (mpush_uniq false) eq_refl C) as [F A]. apply mpush_from; assumption.
Qed.
Print Assumptions C55_multi_any_order.
Example C55_order_witness : exists fields, jpush pz = JObj fields /\ let l := (str "x", JBool true) :: rev fields in carries l fields /\ plain_keys l /\
  read parse_std (c_push false) (object_text esc_std l) push0 = (pz, true).
Proof.
  eexists. split; [reflexivity|]. cbv zeta. split; [|split; [vm_compute; reflexivity|vm_compute; reflexivity]]. split.
  - intros p H. right. apply in_rev in H. exact H.
  - intros k j [E|I] M; [|apply in_rev; exact I]. inversion E; subst k. exfalso. vm_compute in M. repeat destruct M as [M|M]; discriminate || contradiction.
Qed.

(** Different records have different texts. *)
Theorem C55_injective : forall esc parse, wjson_ok esc parse -> forall compact m m', Forall push_typed (mp_data m) -> Forall push_typed (mp_data m') ->
  mpush_text esc compact m = mpush_text esc compact m' -> m = m'.
Proof.
  intros esc parse W compact m m' T T' E. pose proof (C55_multi_push esc parse W compact m m [] T I) as A. pose proof (C55_multi_push esc parse W compact m' m [] T' I) as B.
  rewrite app_nil_r in A, B. rewrite E in A. congruence.
Qed.
Print Assumptions C55_injective.

(** A receiver that expects the other form reports an error and leaves the target unchanged. *)
Theorem C55_other_form : forall esc parse, wjson_ok esc parse -> forall compact m t rest, no_digit rest ->
  read parse (c_mpush (negb compact)) (mpush_text esc compact m ++ rest) t = (t, false).
Proof.
  intros esc parse W compact m t rest N. unfold mpush_text. rewrite <- enc_mpush. rewrite (read_json esc parse W) by auto using keys_mpush. destruct compact; reflexivity.
Qed.
Print Assumptions C55_other_form.

(** The other requests and responses. *)
Theorem C55_del : forall esc parse, wjson_ok esc parse -> forall compact names t rest, no_digit rest ->
  read parse (c_del compact) (write esc (c_del compact) names ++ rest) t = (names, true).
Proof. intros esc parse W compact names t rest N. unfold write. rewrite (read_json esc parse W) by auto using keys_del. apply rt_del. exact I. Qed.
Print Assumptions C55_del.
Theorem C55_responses : forall esc parse, wjson_ok esc parse -> forall compact status t m tm rest, no_digit rest ->
  read parse (c_push_res compact) (write esc (c_push_res compact) status ++ rest) t = (status, true) /\
  read parse (c_mpush_res compact) (write esc (c_mpush_res compact) m ++ rest) tm = (m, true).
Proof.
  intros esc parse W compact status t m tm rest N. unfold write. rewrite !(read_json esc parse W) by (exact N || (destruct compact; reflexivity)). split; [apply rt_push_res|apply rt_mpush_res]; exact I.
Qed.
Print Assumptions C55_responses.

(** With the packer: names compacted by the sender, written, read and expanded by the receiver. *)
Theorem C55_transport : forall esc parse jp, wjson_ok esc parse -> jparser_ok jp -> forall compact_text m t rest,
  mp_sep m <> [] -> zlen (mp_legend m) + names_weight (mp_data m) <= two64 -> Forall push_typed (mp_data m) -> no_digit rest ->
  exists sent received, compact m = Some (true, sent) /\
    read parse (c_mpush compact_text) (mpush_text esc compact_text sent ++ rest) t = (received, true) /\
    recompact jp received = (true, mk_mpush (mp_sep m) [] (mp_data m)).
Proof.
  intros esc parse jp W J ct m t rest S L T N. destruct (C37_round_trip jp J m S L) as (m' & E & _ & D & R). exists m', m'. split; [exact E|]. split; [|exact R].
  apply C55_multi_push; auto. rewrite Forall_forall in *. intros p H. apply (in_map pu_data) in H. rewrite D in H. apply in_map_iff in H. destruct H as (q & Q & H).
  specialize (T q H). unfold push_typed in *. rewrite <- Q. exact T.
Qed.
Print Assumptions C55_transport.
Example C55_transport_witness : exists sent, let m := mk_mpush (str "~~") [] [mk_push (str "a~~b") (pu_data pz); mk_push (str "b~~a") (pu_data pz)] in
  mp_sep m <> [] /\ zlen (mp_legend m) + names_weight (mp_data m) <= two64 /\ Forall push_typed (mp_data m) /\
  compact m = Some (true, sent) /\ mp_legend sent = [str "a"; str "b"] /\ map pu_name (mp_data sent) = [str "0~1"; str "1~0"].
Proof.
  eexists. cbv zeta. split; [discriminate|]. split; [vm_compute; discriminate|]. split; [repeat (constructor; [exact pz_typed|]); constructor|].
  split; [vm_compute; reflexivity|]. split; vm_compute; reflexivity.
Qed.
