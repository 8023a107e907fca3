(** Properties C37-C44, C56, C57: wrtstat/multi_packer/basic_packer.cpp. *)
From Coq Require Import String Ascii ZArith NArith List Bool Permutation Lia.
From Verif Require Import Base ModelTypes ModelRegistry ModelJson ModelPacker SpecPacker PackName PackerProofs PackerSize PackerMore.
Import ListNotations.
Local Open Scope Z_scope.
Local Open Scope list_scope.

(** Example records and options *)
Definition px (n : string) (d : list Z) : push := mk_push (str n) (mk_adata (mk_rinfo 100 3 0 1 9 4) (mk_perc 4 5 6 7 9) d).
Definition px_o (limit : Z) (ncompact : bool) : popts := mk_popts 2 0 limit false (str "~~") ncompact.
Definition px_calls : list pcall :=
  [PPush (px "a~~b" [1; 2]); PMulti [px "b~~b~~~" [3]; px "" []; px "7~0" [4]]; PMultiPop; PPop 200; PPush (px "c" [5]); PPushout].

(** C37 *)
(** recompact undoes compact, for every parser that meets the contract. *)
Theorem C37_round_trip : forall jp, jparser_ok jp -> forall m, mp_sep m <> [] ->
  zlen (mp_legend m) + names_weight (mp_data m) <= two64 ->
  exists m', compact m = Some (true, m') /\ mp_sep m' = mp_sep m /\ map pu_data (mp_data m') = map pu_data (mp_data m) /\
    recompact jp m' = (true, mk_mpush (mp_sep m) [] (mp_data m)).
Proof. exact round_trip. Qed.
Print Assumptions C37_round_trip.

(** The contract can be met. *)
Theorem C37_parser_exists : jparser_ok jp_std.
Proof. exact jp_std_ok. Qed.
Print Assumptions C37_parser_exists.

Example C37_witness : exists m, compact (mk_mpush (str "~~") [] [px "a~~b" [1; 2]; px "b~~b~~~" []; px "" []; px "7~0" [4]]) = Some (true, m) /\
  mp_legend m = [str "a"; str "b"; str "~"; []; str "7~0"] /\ map pu_name (mp_data m) = [str "0~1"; str "1~1~2"; str "3"; str "4"] /\
  recompact jp_std m = (true, mk_mpush (str "~~") [] [px "a~~b" [1; 2]; px "b~~b~~~" []; px "" []; px "7~0" [4]]).
Proof. eexists. split; [vm_compute; reflexivity|]. vm_compute. auto. Qed.

(** C38 *)
(** Every batch can be read by the receiver, and what was received, popped one by one and is still stored is what was pushed. *)
Theorem C38_exactly_once : forall jp, jparser_ok jp -> forall esc o h cs rs p,
  (po_ncompact o = true -> po_sep o <> []) -> names_weight (flat_map pushed cs) <= two64 ->
  pk_run esc (pk_new o h) cs = Some (rs, p) ->
  Forall (fun b => fst (recompact jp b) = true /\ map pu_data (mp_data b) = map pu_data (received jp b)) (flat_map batches rs) /\
  Permutation (flat_map pushed cs) (flat_map (received jp) (flat_map batches rs) ++ flat_map singles rs ++ stored p).
Proof.
  intros jp OK esc o h cs rs p Ho Hw H.
  destruct (run_ok esc jp OK o h cs (pk_new o h) Ho (PInv_new esc o h)) as (rs' & p' & ls & E & _ & R & P);
    [unfold stored; simpl; now rewrite app_nil_r|].
  rewrite E in H. injection H as <- <-. change (stored (pk_new o h)) with (@nil push) in P. rewrite app_nil_r in P.
  assert (X : Forall (fun b => fst (recompact jp b) = true /\ map pu_data (mp_data b) = map pu_data (received jp b)) (flat_map batches rs') /\
    flat_map (received jp) (flat_map batches rs') = concat ls).
  { clear -R. induction R as [|b l bs ls (A & B & C) R IH]; simpl; [auto|]. destruct IH as [I1 I2]. split; [constructor; [|exact I1]|].
    - split; [exact A|]. now rewrite B.
    - now rewrite B, I2. }
  destruct X as [X1 X2]. split; [exact X1|]. now rewrite X2.
Qed.
Print Assumptions C38_exactly_once.

(** pushout() with a handler delivers everything. *)
Theorem C38_pushout_empties : forall esc o cs rs p n ms p', (po_ncompact o = true -> po_sep o <> []) ->
  names_weight (stored p) <= two64 ->
  pk_run esc (pk_new o true) cs = Some (rs, p) -> pk_pushout esc p = Some (n, ms, p') -> stored p' = [].
Proof.
  intros esc o cs rs p n ms p' Ho Hw H Q. apply reach_inv in H; [|exact Ho].
  destruct (pushout_ok esc jp_std jp_std_ok o true p Ho H Hw) as (n' & ms' & p2 & E & _ & S & _). rewrite E in Q. injection Q as <- <- <-. exact S.
Qed.
Print Assumptions C38_pushout_empties.

(** clear() drops what is stored, and the packer then behaves as a new one with the same options and handler. *)
Theorem C38_clear : forall esc o h cs rs p, (po_ncompact o = true -> po_sep o <> []) ->
  pk_run esc (pk_new o h) cs = Some (rs, p) ->
  stored (pk_clear p) = [] /\ forall cs', pk_run esc (pk_clear p) cs' = pk_run esc (pk_new o h) cs'.
Proof.
  intros esc o h cs rs p Ho H. apply reach_inv in H; [|exact Ho]. split; [reflexivity|]. intros cs'.
  replace (pk_clear p) with (pk_new o h); [reflexivity|]. destruct H as (E1 & E2 & _). unfold pk_clear, pk_set, pk_new. now rewrite E1, E2.
Qed.
Print Assumptions C38_clear.

Example C38_witness : exists rs p, pk_run esc_std (pk_new (px_o 420 true) true) px_calls = Some (rs, p) /\
  map (fun b => map pu_name (mp_data b)) (flat_map batches rs) = [[str "0~1"; str "1~1~2"]; [str "0"; str "1"]] /\
  flat_map singles rs = [px "7~0" [4]] /\ stored p = [] /\ names_weight (flat_map pushed px_calls) <= two64.
Proof. eexists _, _. split; [vm_compute; reflexivity|]. vm_compute. repeat split; discriminate. Qed.

(** C39 *)
(** Without name compaction, with a separator that is not longer than the default one when escaped. *)
Theorem C39_json_limit_partial : forall esc o h cs rs p m p', po_ncompact o = false ->
  zlen (esc (po_sep o)) <= zlen (esc sep0) ->
  pk_run esc (pk_new o h) cs = Some (rs, p) -> pk_multi_pop esc p = Some (Some m, p') ->
  zlen (mpush_text esc (po_jcompact o) m) <= po_json o.
Proof.
  intros esc o h cs rs p m p' N Hs H Q. assert (Ho : opts_ok o) by (unfold opts_ok; congruence).
  apply reach_inv in H; [|exact Ho]. exact (json_limit_plain esc o h p m p' Ho H N Hs Q).
Qed.
Print Assumptions C39_json_limit_partial.

(** With name compaction, as long as the batch has at most ten distinct name parts, none of which grows by more than one
    character when escaped. *)
Theorem C39_compact_partial : forall esc o h cs rs p m p', po_ncompact o = true -> po_sep o <> [] ->
  zlen (esc (po_sep o)) <= zlen (esc sep0) ->
  (forall s, zlen s <= zlen (esc s)) -> (forall s, Forall (fun c => is_digit c = true \/ c = "~"%char) s -> esc s = s) ->
  pk_run esc (pk_new o h) cs = Some (rs, p) -> pk_multi_pop esc p = Some (Some m, p') ->
  (length (mp_legend m) <= 10)%nat -> (forall n, In n (mp_legend m) -> zlen (esc n) <= zlen n + 1) ->
  zlen (mpush_text esc (po_jcompact o) m) <= po_json o.
Proof.
  intros esc o h cs rs p m p' N Hn Hs H1 H2 H Q L E. assert (Ho : opts_ok o) by (unfold opts_ok; auto).
  apply reach_inv in H; [|exact Ho]. exact (json_limit_compact esc o h p m p' Ho H N Hs H1 H2 Q L E).
Qed.
Print Assumptions C39_compact_partial.

(** With eleven name parts the limit is exceeded: 870 allowed, 880 characters delivered. *)
Definition px_many : list push :=
  map (fun n => px n [1;2;3;4;5;6;7;8;9;10;11;12;13;14;15]) ["a";"b";"c";"d";"e";"f";"g";"h";"i";"j"]%string ++
  [px "k~~k~~k~~k~~k~~k~~k~~k~~k~~k~~k~~k~~k~~k" []; px "k~~k~~k~~k~~k~~k~~k~~k~~k~~k~~k~~k~~k~~k" []].
Theorem C39_compact_refuted : exists o cs rs p m p', po_ncompact o = true /\ po_json o = 870 /\ po_sep o = sep0 /\
  pk_run esc_std (pk_new o true) cs = Some (rs, p) /\ pk_multi_pop esc_std p = Some (Some m, p') /\
  zlen (mpush_text esc_std (po_jcompact o) m) = 880.
Proof.
  exists (mk_popts 0 0 870 true sep0 true), [PMulti px_many]. eexists _, _, _, _.
  split; [reflexivity|]. split; [reflexivity|]. split; [reflexivity|]. split; [vm_compute; reflexivity|].
  split; [vm_compute; reflexivity|]. vm_compute. reflexivity.
Qed.
Print Assumptions C39_compact_refuted.

(** A longer separator is not accounted for: 180 allowed, 194 characters delivered. *)
Theorem C39_separator_refuted : exists o cs rs p m p', po_ncompact o = false /\ po_json o = 180 /\
  pk_run esc_std (pk_new o true) cs = Some (rs, p) /\ pk_multi_pop esc_std p = Some (Some m, p') /\
  zlen (mpush_text esc_std (po_jcompact o) m) = 194.
Proof.
  exists (mk_popts 0 0 180 false (str "~~separator~~separator~~") false), [PPush (px "abc" [1; 2; 3])]. eexists _, _, _, _.
  split; [reflexivity|]. split; [reflexivity|]. split; [vm_compute; reflexivity|].
  split; [vm_compute; reflexivity|]. vm_compute. reflexivity.
Qed.
Print Assumptions C39_separator_refuted.

Example C39_witness : exists rs p m p', pk_run esc_std (pk_new (px_o 420 false) true) [PMulti [px "a~~b" [1; 2]; px "b" [3]; px "c" []]] = Some (rs, p) /\
  pk_multi_pop esc_std p = Some (Some m, p') /\ zlen (mpush_text esc_std false m) = 304 /\ length (mp_data m) = 2%nat.
Proof. eexists _, _, _, _. split; [vm_compute; reflexivity|]. split; [vm_compute; reflexivity|]. vm_compute. auto. Qed.
Example C39_compact_witness : exists rs p m p', pk_run esc_std (pk_new (px_o 420 true) true) [PMulti [px "a~~b" [1; 2]; px "b" [3]; px "c" []]] = Some (rs, p) /\
  pk_multi_pop esc_std p = Some (Some m, p') /\ length (mp_legend m) = 2%nat /\ (forall n, In n (mp_legend m) -> zlen (esc_std n) <= zlen n + 1).
Proof.
  eexists _, _, _, _. split; [vm_compute; reflexivity|]. split; [vm_compute; reflexivity|]. split; [vm_compute; reflexivity|].
  intros n [<-|[<-|[]]]; vm_compute; discriminate.
Qed.

(** C40 *)
Theorem C40_push_limit : forall esc p m p', 0 < po_push (pk_opt p) -> pk_multi_pop esc p = Some (Some m, p') ->
  1 <= zlen (mp_data m) <= po_push (pk_opt p).
Proof. exact multi_pop_push_limit. Qed.
Print Assumptions C40_push_limit.

Example C40_witness : exists rs p m p', pk_run esc_std (pk_new (px_o 32768 false) true) [PMulti [px "a" []; px "b" []; px "c" []]] = Some (rs, p) /\
  pk_multi_pop esc_std p = Some (Some m, p') /\ zlen (mp_data m) = 2 /\ po_push (pk_opt p) = 2 /\ length (stored p') = 1%nat.
Proof. eexists _, _, _, _. split; [vm_compute; reflexivity|]. split; [vm_compute; reflexivity|]. vm_compute. auto. Qed.

(** C41 *)
(** data_limit has no influence at all: the same batch comes out whatever its value. *)
Theorem C41_data_limit_ignored_refuted : forall esc d p, 0 <= po_data (pk_opt p) -> 0 <= d ->
  pk_multi_pop esc (with_data d p) = option_map (fun q => (fst q, with_data d (snd q))) (pk_multi_pop esc p).
Proof. exact multi_pop_with_data. Qed.
Print Assumptions C41_data_limit_ignored_refuted.

Example C41_witness : exists rs p m p', pk_run esc_std (pk_new (mk_popts 32768 1 32768 false sep0 false) true)
    [PMulti [px "a" [1; 2; 3]; px "b" [4; 5; 6]]] = Some (rs, p) /\
  pk_multi_pop esc_std p = Some (Some m, p') /\ pk_multi_pop esc_std (with_data 100 p) = Some (Some m, with_data 100 p') /\ length (mp_data m) = 2%nat.
Proof.
  eexists _, _, _, _. split; [vm_compute; reflexivity|]. split; [vm_compute; reflexivity|]. split; [vm_compute; reflexivity|]. reflexivity.
Qed.

(** A batch with 6 values under data_limit = 1. *)
Theorem C41_data_limit_refuted : exists o cs rs p m p', po_data o = 1 /\ pk_run esc_std (pk_new o true) cs = Some (rs, p) /\
  pk_multi_pop esc_std p = Some (Some m, p') /\ length (flat_map (fun r => ad_data (pu_data r)) (mp_data m)) = 6%nat.
Proof.
  exists (mk_popts 32768 1 32768 false sep0 false), [PMulti [px "a" [1; 2; 3]; px "b" [4; 5; 6]]]. eexists _, _, _, _.
  split; [reflexivity|]. split; [vm_compute; reflexivity|]. split; [vm_compute; reflexivity|]. vm_compute. reflexivity.
Qed.
Print Assumptions C41_data_limit_refuted.

(** C42 *)
Theorem C42_best_fit : forall esc o h cs rs p max, (po_ncompact o = true -> po_sep o <> []) ->
  pk_run esc (pk_new o h) cs = Some (rs, p) ->
  match pk_pop max p with
  | None => Forall (fun r => max < accounted esc o r) (stored p)
  | Some (t, p') => t_size t = accounted esc o (t_rec t) /\ t_size t <= max /\
      Permutation (stored p) (t_rec t :: stored p') /\
      Forall (fun r => accounted esc o r <= max -> accounted esc o r <= t_size t) (stored p)
  end.
Proof. intros esc o h cs rs p max Ho H. apply reach_inv in H; [|exact Ho]. exact (best_fit esc o h p max H). Qed.
Print Assumptions C42_best_fit.

Theorem C42_extremes : forall esc o h cs rs p, (po_ncompact o = true -> po_sep o <> []) ->
  pk_run esc (pk_new o h) cs = Some (rs, p) ->
  (stored p = [] -> pk_min_val p = 0 /\ pk_max_val p = 0) /\
  (stored p <> [] -> In (pk_min_val p) (map (accounted esc o) (stored p)) /\ In (pk_max_val p) (map (accounted esc o) (stored p)) /\
     Forall (fun r => pk_min_val p <= accounted esc o r <= pk_max_val p) (stored p)).
Proof. intros esc o h cs rs p Ho H. apply reach_inv in H; [|exact Ho]. exact (extremes esc o h p H). Qed.
Print Assumptions C42_extremes.

(** size(), empty() and size(data_size, capacity) count what is stored. *)
Theorem C42_sizes : forall p, pk_size p = length (stored p) /\ (pk_empty p = true <-> stored p = []) /\
  pk_data_size p = list_sum (map (fun r => length (ad_data (pu_data r))) (stored p)).
Proof.
  intros [o h l]. unfold pk_size, pk_empty, pk_data_size, stored. simpl. rewrite map_length, map_map. split; [reflexivity|]. split; [|reflexivity].
  destruct l; simpl; split; auto; discriminate.
Qed.
Print Assumptions C42_sizes.

Example C42_witness : exists rs p, pk_run esc_std (pk_new (px_o 420 true) true) [PMulti px_many] = Some (rs, p) /\
  pk_min_val p = 157 /\ pk_max_val p = 166 /\ option_map (fun q => t_size (fst q)) (pk_pop 165 p) = Some 157 /\
  pk_pop 156 p = None /\ option_map (fun q => t_size (fst q)) (pk_pop 500 p) = Some 166.
Proof. eexists _, _. split; [vm_compute; reflexivity|]. vm_compute. auto. Qed.

(** C43 *)
(** Every call returns unless names are compacted with an empty separator. *)
Theorem C43_terminates_partial : forall esc o h cs, (po_ncompact o = true -> po_sep o <> []) ->
  exists rs p, pk_run esc (pk_new o h) cs = Some (rs, p).
Proof.
  intros esc o h cs Ho. destruct (run_inv esc o h cs (pk_new o h) Ho (PInv_new esc o h)) as (rs & p & E & _). eauto.
Qed.
Print Assumptions C43_terminates_partial.

Example C43_witness : po_sep (px_o 420 true) <> [] /\ exists rs p, pk_run esc_std (pk_new (px_o 420 true) true) px_calls = Some (rs, p) /\
  length (flat_map batches rs) = 2%nat.
Proof. split; [discriminate|]. eexists _, _. split; [vm_compute; reflexivity|]. reflexivity. Qed.

(** The fuel given to the loops does not matter once they end. *)
Theorem C43_fuel_independent : forall esc,
  (forall sep f f' rest lg out x, compact_loop f sep rest lg out = Some x -> (f <= f')%nat -> compact_loop f' sep rest lg out = Some x) /\
  (forall f f' jl pl dl seen res p x, pop_loop esc f jl pl dl seen res p = Some x -> (f <= f')%nat -> pop_loop esc f' jl pl dl seen res p = Some x) /\
  (forall f f' p x, pushout_loop esc f p = Some x -> (f <= f')%nat -> pushout_loop esc f' p = Some x).
Proof. intros esc. split; [exact compact_loop_fuel|]. split; [exact (pop_loop_fuel esc)|exact (pushout_loop_fuel esc)]. Qed.
Print Assumptions C43_fuel_independent.

(** name_compact with an empty name_sep: push() does not return, however long it runs. *)
Theorem C43_empty_separator_refuted : forall esc r p, po_ncompact (pk_opt p) = true -> po_sep (pk_opt p) = [] ->
  pk_push esc r p = None /\ forall fuel lg out, compact_loop fuel (po_sep (pk_opt p)) (pu_name r) lg out = None.
Proof.
  intros esc r p N S. split; [|intros; rewrite S; apply compact_loop_diverges].
  unfold pk_push. rewrite N. unfold compact_name. rewrite S, compact_loop_diverges. reflexivity.
Qed.
Print Assumptions C43_empty_separator_refuted.

(** C44 *)
(** Any malformed name makes recompact fail; if all names are well-formed it succeeds. *)
Theorem C44_failure_reported_partial : forall jp, jparser_ok jp -> forall m, mp_legend m <> [] -> mp_sep m <> [] -> zlen (mp_legend m) <= two64 ->
  (Exists (fun r => malformed (N.of_nat (length (mp_legend m))) (pu_name r)) (mp_data m) -> fst (recompact jp m) = false) /\
  (Forall (fun r => well_formed (N.of_nat (length (mp_legend m))) (pu_name r)) (mp_data m) -> fst (recompact jp m) = true).
Proof.
  intros jp OK [sep lg d] HL HS HB. cbn [mp_legend mp_sep mp_data] in *. unfold recompact. cbn [mp_legend mp_sep mp_data].
  destruct lg as [|x lg]; [congruence|]. destruct sep as [|c sep]; [congruence|].
  destruct (expand_data jp (c :: sep) (x :: lg) d) as [b d'] eqn:E. cbn [fst].
  pose proof (expand_data_fail jp (c :: sep) (x :: lg) d) as F. rewrite E in F. cbn [fst] in F. split.
  - intros H. apply F. eapply Exists_impl; [|exact H]. intros r Hr. apply malformed_fails; auto.
  - intros H. destruct b; [reflexivity|]. exfalso. destruct F as [F _]. specialize (F eq_refl).
    apply Exists_exists in F. destruct F as (r & Hr & N). rewrite Forall_forall in H.
    destruct (well_formed_succeeds jp OK (c :: sep) (x :: lg) (pu_name r) HB (H r Hr)) as (n & E2). congruence.
Qed.
Print Assumptions C44_failure_reported_partial.

(** Without a separator a non-empty legend is refused and nothing changes; without a legend there is nothing to do. *)
Theorem C44_edge_cases : forall jp m, (mp_legend m <> [] -> mp_sep m = [] -> recompact jp m = (false, m)) /\
  (mp_legend m = [] -> recompact jp m = (true, m)).
Proof.
  intros jp [sep lg d]. unfold recompact. cbn [mp_legend mp_sep mp_data]. split.
  - intros H ->. destruct lg; [congruence|reflexivity].
  - intros ->. reflexivity.
Qed.
Print Assumptions C44_edge_cases.

(** After a failure the records, the separator and the legend are kept; the names before the first bad one are expanded, the
    others are untouched. *)
Theorem C44_state_after_failure_partial : forall jp m m', recompact jp m = (false, m') -> mp_sep m <> [] ->
  mp_sep m' = mp_sep m /\ mp_legend m' = mp_legend m /\ map pu_data (mp_data m') = map pu_data (mp_data m) /\
  exists k, skipn k (mp_data m') = skipn k (mp_data m) /\
    (forall i, (i < k)%nat -> option_map (fun r => Some (pu_name r)) (nth_error (mp_data m') i) =
       option_map (fun r => expand_name jp (mp_sep m) (mp_legend m) (pu_name r)) (nth_error (mp_data m) i)) /\
    exists r, nth_error (mp_data m) k = Some r /\ expand_name jp (mp_sep m) (mp_legend m) (pu_name r) = None.
Proof.
  intros jp [sep lg d] m' H Hs. unfold recompact in H. cbn [mp_legend mp_sep mp_data] in *.
  destruct lg as [|x lg]; [discriminate|]. destruct sep as [|c sep]; [congruence|].
  destruct (expand_data jp (c :: sep) (x :: lg) d) as [b d'] eqn:E. injection H as -> <-. cbn [mp_legend mp_sep mp_data].
  destruct (expand_data_split jp (c :: sep) (x :: lg) d false d' E) as (k & A & B & C & _ & D).
  split; [reflexivity|]. split; [reflexivity|]. split; [exact A|]. exists k. split; [exact B|]. split; [exact C|]. exact (D eq_refl).
Qed.
Print Assumptions C44_state_after_failure_partial.

(** The request is damaged: for every parser, legend ["a"], names "0" and "5" become "a" and "5", and the legend stays. *)
Theorem C44_request_changed_refuted : forall jp, jparser_ok jp ->
  recompact jp (mk_mpush sep0 [str "a"] [px "0" []; px "5" []]) = (false, mk_mpush sep0 [str "a"] [px "a" []; px "5" []]).
Proof.
  intros jp OK. destruct (jp_number jp OK 0%N [] ltac:(reflexivity) I) as [A B]. destruct (jp_number jp OK 5%N [] ltac:(reflexivity) I) as [C D].
  change (dec 0 ++ []) with (str "0") in A, B. change (dec 5 ++ []) with (str "5") in C, D.
  unfold recompact. cbn [mp_legend mp_sep mp_data]. change sep0 with ["~"; "~"]%char. cbv iota.
  cbn [expand_data pu_name px]. unfold expand_name at 1. cbn [length str list_ascii_of_string expand_loop].
  change ["0"%char] with (str "0"). rewrite A, B. cbn.
  unfold expand_name. cbn [length expand_loop]. change ["5"%char] with (str "5"). rewrite C, D. reflexivity.
Qed.
Print Assumptions C44_request_changed_refuted.

(** The loop of recompact over one name ends: more turns than characters make no difference. *)
Theorem C44_terminates : forall jp, jparser_ok jp -> forall sep lg n fuel, (length n < fuel)%nat ->
  expand_loop jp fuel sep lg n [] = expand_name jp sep lg n.
Proof. intros jp OK sep lg n fuel H. apply (expand_fuel jp OK sep lg (length n)); lia. Qed.
Print Assumptions C44_terminates.

Example C44_witness : malformed 3 (str "0~2~3") /\ malformed 3 (str "0~x") /\ malformed 3 (str "1_2") /\ well_formed 3 (str "0~2~1") /\
  fst (recompact jp_std (mk_mpush sep0 [str "a"; str "b"; str "c"] [px "0~2" []; px "0~2~3" []])) = false /\
  fst (recompact jp_std (mk_mpush sep0 [str "a"; str "b"; str "c"] [px "0~2~1" []])) = true.
Proof.
  assert (P0 : index_prefix 3 (str "0~")) by (apply (ip_cons 3 0%N []); [lia|constructor]).
  assert (P1 : index_prefix 3 (str "0~2~")) by (apply (ip_cons 3 0%N (str "2~")); [lia|]; apply (ip_cons 3 2%N []); [lia|constructor]).
  split; [apply (mf_range 3 (str "0~2~") 3%N [] P1); [lia|reflexivity|exact I]|].
  split; [apply (mf_start 3 (str "0~") "x"%char [] P0); [reflexivity|discriminate]|].
  split; [apply (mf_sep 3 [] 1%N "_"%char (str "2") (ip_nil 3)); [lia|reflexivity|discriminate]|].
  split; [apply (wf_intro 3 (str "0~2~") 1%N P1); lia|]. split; vm_compute; reflexivity.
Qed.

(** C56 *)
(** Without name compaction multi_pop returns nothing only if no stored record fits into the limit, and then changes nothing. *)
Theorem C56_progress_partial : forall esc o h cs rs p p', po_ncompact o = false ->
  pk_run esc (pk_new o h) cs = Some (rs, p) -> pk_multi_pop esc p = Some (None, p') ->
  p' = p /\ Forall (fun r => po_json o < zlen (mpush_text esc (po_jcompact o) mpush0) + zlen (push_text esc (po_jcompact o) r)) (stored p).
Proof.
  intros esc o h cs rs p p' N H Q. assert (Ho : opts_ok o) by (unfold opts_ok; congruence). apply reach_inv in H; [|exact Ho].
  destruct (progress esc o h p p' Ho H N Q) as [A B]. split; [exact A|]. eapply Forall_impl; [|exact B].
  intros r. unfold accounted, mpush_size. rewrite N. lia.
Qed.
Print Assumptions C56_progress_partial.

(** 150 is less than either of the two records needs. *)
Example C56_witness : exists rs p, pk_run esc_std (pk_new (mk_popts 0 0 150 false sep0 false) true) [PMulti [px "a" [1; 2; 3]; px "b" [4; 5; 6]]] = Some (rs, p) /\
  length (stored p) = 2%nat /\ pk_multi_pop esc_std p = Some (None, p).
Proof. eexists _, _. split; [vm_compute; reflexivity|]. split; [reflexivity|]. vm_compute. reflexivity. Qed.

(** With name compaction a record that does not fit together with its legend hides smaller ones that do. *)
Theorem C56_progress_refuted : exists o cs rs p p' r b m, po_ncompact o = true /\ pk_run esc_std (pk_new o true) cs = Some (rs, p) /\
  pk_multi_pop esc_std p = Some (None, p') /\ In r (stored p) /\
  compact (mk_mpush (po_sep o) [] [r]) = Some (b, m) /\ zlen (mpush_text esc_std (po_jcompact o) m) < po_json o.
Proof.
  exists (mk_popts 0 0 200 false sep0 true), [PMulti [px "a_quite_long_counter_name_with_a_long_legend_entry" []; px "a" []]].
  eexists _, _, _, (px "a" []), _, _. split; [reflexivity|]. split; [vm_compute; reflexivity|]. split; [vm_compute; reflexivity|].
  split; [vm_compute; auto|]. split; [vm_compute; reflexivity|]. vm_compute. reflexivity.
Qed.
Print Assumptions C56_progress_refuted.

(** C57 *)
(** pushout() delivers batches made by multi_pop(), their number is returned; what is left, if anything, follows in one more batch. *)
Theorem C57_pushout_limits_partial : forall esc o cs rs p n ms p', po_ncompact o = false ->
  zlen (esc (po_sep o)) <= zlen (esc sep0) -> pk_run esc (pk_new o true) cs = Some (rs, p) -> pk_pushout esc p = Some (n, ms, p') ->
  exists bs, length bs = n /\
    Forall (fun b => zlen (mpush_text esc (po_jcompact o) b) <= po_json o /\ (0 < po_push o -> 1 <= zlen (mp_data b) <= po_push o)) bs /\
    (ms = bs \/ exists left rest, ms = bs ++ [left] /\ compact (mk_mpush sep0 [] rest) = Some (true, left) /\ rest <> [] /\
       Forall (fun r => po_json o < zlen (mpush_text esc (po_jcompact o) mpush0) + zlen (push_text esc (po_jcompact o) r)) rest).
Proof.
  intros esc o cs rs p n ms p' N Hs H Q. assert (Ho : opts_ok o) by (unfold opts_ok; congruence). apply reach_inv in H; [|exact Ho].
  destruct (pushout_batches esc o (fun b => zlen (mpush_text esc (po_jcompact o) b) <= po_json o /\ (0 < po_push o -> 1 <= zlen (mp_data b) <= po_push o)) Ho)
    with (p := p) (n := n) (ms := ms) (p' := p') as (bs & A & B & C); auto.
  { intros q m q' I E. split; [exact (json_limit_plain esc o true q m q' Ho I N Hs E)|].
    intros Hp. assert (EO : pk_opt q = o) by apply I. rewrite <- EO in *. exact (multi_pop_push_limit esc q m q' Hp E). }
  exists bs. split; [exact B|]. split; [exact A|]. destruct C as [C|(left & p0 & C & I0 & Sn & (q & Iq & Eq) & K)]; [auto|].
  right. exists left, (stored p0). split; [exact C|]. split; [exact K|]. split; [exact Sn|].
  destruct (progress esc o true q p0 Ho Iq N Eq) as [-> F]. eapply Forall_impl; [|exact F].
  intros r. unfold accounted, mpush_size. rewrite N. lia.
Qed.
Print Assumptions C57_pushout_limits_partial.

(** That last batch breaks all limits and has compacted names although name_compact is off. *)
Theorem C57_leftover_refuted : exists o cs rs p m p', po_ncompact o = false /\ po_push o = 1 /\ po_json o = 100 /\
  pk_run esc_std (pk_new o true) cs = Some (rs, p) /\ pk_pushout esc_std p = Some (0%nat, [m], p') /\
  zlen (mp_data m) = 2 /\ 100 < zlen (mpush_text esc_std false m) /\ map pu_name (mp_data m) = [str "0"; str "1~0"].
Proof.
  exists (mk_popts 1 0 100 false sep0 false), [PMulti [px "a~~b" []; px "b" []]]. eexists _, _, _, _.
  split; [reflexivity|]. split; [reflexivity|]. split; [reflexivity|]. split; [vm_compute; reflexivity|]. split; [vm_compute; reflexivity|].
  vm_compute. auto.
Qed.
Print Assumptions C57_leftover_refuted.

Example C57_witness : exists rs p ms p', pk_run esc_std (pk_new (px_o 320 false) true) [PMulti [px "a~~b" [1; 2]; px "b" [3]; px "c" []]] = Some (rs, p) /\
  pk_pushout esc_std p = Some (2%nat, ms, p') /\ map (fun b => length (mp_data b)) ms = [2; 1]%nat.
Proof. eexists _, _, _, _. split; [vm_compute; reflexivity|]. split; [vm_compute; reflexivity|]. vm_compute. auto. Qed.
