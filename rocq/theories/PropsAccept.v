(** C55: which texts are accepted.  Requests that have all their members: wrtstat/api/push_json.hpp, multi_push_json.hpp and the compact forms. *)
From Coq Require Import String Ascii ZArith NArith List Bool Lia.
From Verif Require Import Base ModelTypes ModelReducer ModelSeparator ModelAggregator ModelRegistry ModelJson ModelPacker SpecPacker PackName
  ModelCodec SpecCodec CodecProofs CodecRound PropsCodec.
Import ListNotations.
Local Open Scope Z_scope.
Local Open Scope list_scope.

Definition push_keys : list name :=
  map str ["name"; "ts"; "avg"; "count"; "perc50"; "perc80"; "perc95"; "perc99"; "perc100"; "lossy"; "min"; "max"; "data"]%string.
(** A record with all members, of any types: 13 places, or the 13 keys. *)
Definition whole (compact : bool) (j : json) : Prop :=
  match j with JArr l => compact = true /\ length l = 13%nat | JObj l => compact = false /\ map fst l = push_keys | _ => False end.
(** A batch with its three members, of any types. *)
Definition batch (compact : bool) (sep legend data : json) : json :=
  if compact then JArr [sep; legend; data] else JObj [(str "sep", sep); (str "legend", legend); (str "data", data)].

(* ---- proof ---- *)
Lemma i64_dec j x a : c_dec c_i64 j x = (a, true) -> j = JNum a /\ int64 a.
Proof.
  destruct j as [z| | | |]; cbn [c_dec c_i64]; try discriminate. destruct ((- 2 ^ 63 <=? z) && (z <? 2 ^ 63)) eqn:E; [|discriminate]. intros H. injection H as <-.
  apply andb_prop in E as [A B]. apply Z.leb_le in A. apply Z.ltb_lt in B. split; [reflexivity|]. split; assumption.
Qed.
Lemma u64_dec j x a : c_dec c_u64 j x = (a, true) -> j = JNum a /\ uint64 a.
Proof.
  destruct j as [z| | | |]; cbn [c_dec c_u64]; try discriminate. destruct ((0 <=? z) && (z <? two64)) eqn:E; [|discriminate]. intros H. injection H as <-.
  apply andb_prop in E as [A B]. apply Z.leb_le in A. apply Z.ltb_lt in B. split; [reflexivity|]. split; assumption.
Qed.
Lemma str_dec j x a : c_dec c_str j x = (a, true) -> j = JStr a.
Proof. destruct j; cbn; try discriminate. intros H. injection H as <-. reflexivity. Qed.
Lemma vec_all {A} (c : codec A) a0 : forall l r, vec_dec c a0 l = (r, true) -> Forall2 (fun j a => c_dec c j a0 = (a, true)) l r.
Proof.
  induction l as [|j l IH]; intros r H; cbn [vec_dec] in H; [injection H as <-; constructor|].
  destruct (c_dec c j a0) as [a ok] eqn:E. destruct ok; [|discriminate]. destruct (vec_dec c a0 l) as [r' ok']. injection H as <- ->. constructor; auto.
Qed.
Lemma vec_dec_arr {A} (c : codec A) a0 j x r : c_dec (c_vec c a0) j x = (r, true) -> exists l, j = JArr l /\ Forall2 (fun j a => c_dec c j a0 = (a, true)) l r.
Proof. destruct j as [| | |l|]; cbn [c_dec c_vec]; try discriminate. intros H. exists l. split; [reflexivity|]. apply vec_all. exact H. Qed.
Lemma nums_dec j x r : c_dec (c_vec c_i64 0) j x = (r, true) -> j = JArr (map JNum r) /\ Forall int64 r.
Proof.
  intros H. apply vec_dec_arr in H as (l & -> & F). enough (l = map JNum r /\ Forall int64 r) as [-> K] by auto.
  induction F as [|j a l r E F [-> K]]; [split; [reflexivity|constructor]|]. apply i64_dec in E as [-> E]. split; [reflexivity|constructor; assumption].
Qed.
Lemma strs_dec j x r : c_dec (c_vec c_str []) j x = (r, true) -> j = JArr (map JStr r).
Proof.
  intros H. apply vec_dec_arr in H as (l & -> & F). f_equal. induction F as [|j a l r E F IH]; [reflexivity|]. apply str_dec in E. cbn. congruence.
Qed.
Lemma arr_cons {T} (m : member T) ms j l t t' : arr_dec (m :: ms) (j :: l) t = (t', true) -> exists t1, m_dec m j t = (t1, true) /\ arr_dec ms l t1 = (t', true).
Proof. cbn [arr_dec]. destruct (m_dec m j t) as [t1 []]; [eauto|discriminate]. Qed.
Lemma combine_fst_snd {A B} (l : list (A * B)) : combine (map fst l) (map snd l) = l.
Proof. induction l as [|[a b] l IH]; [reflexivity|]. cbn. congruence. Qed.
Ltac member_step D :=
  cbn [m_dec field pu_name pu_data ad_info ad_perc ad_data ri_ts ri_count ri_lossy ri_min ri_max ri_avg p50 p80 p95 p99 p100 mp_sep mp_legend mp_data] in D;
  match type of D with context [c_dec ?c ?j ?x] => let a := fresh "a" in let E := fresh "E" in destruct (c_dec c j x) as [a []] eqn:E; [|discriminate D];
    injection D as <-;
    first [apply i64_dec in E as [-> E] | apply u64_dec in E as [-> E] | apply str_dec in E as -> | apply nums_dec in E as [-> E] | apply strs_dec in E as -> | idtac] end.
Ltac arr_step H := let t1 := fresh "t" in let D := fresh "D" in apply arr_cons in H as (t1 & D & H); member_step D.
Lemma obj_as_arr {T} strict (ms0 : list (member T)) : (forall m m', In m ms0 -> In m' ms0 -> m_key m = m_key m' -> m = m') ->
  forall ms, incl ms ms0 -> forall l t, map fst l = map m_key ms -> obj_dec strict ms0 l t = arr_dec ms (map snd l) t.
Proof.
  intros U. induction ms as [|m ms IH]; intros I l t E; destruct l as [|[k j] l]; try discriminate; [reflexivity|]. cbn [map fst] in E. injection E as -> E.
  cbn [obj_dec arr_dec map snd].
  assert (F : find (fun m' => name_eqb (m_key m') (m_key m)) ms0 = Some m).
  { destruct (find (fun m' => name_eqb (m_key m') (m_key m)) ms0) as [m'|] eqn:F.
    - apply find_some in F as [F K]. apply name_eqb_eq in K. f_equal. apply U; auto. apply I. left. reflexivity.
    - exfalso. pose proof (find_none _ _ F m (I m (or_introl eq_refl))) as X. cbn in X. assert (Y : name_eqb (m_key m) (m_key m) = true) by (apply name_eqb_eq; reflexivity). congruence. }
  rewrite F. destruct (m_dec m j t) as [t1 []]; [|reflexivity]. apply IH; [|exact E]. intros x X. apply I. right. exact X.
Qed.
Lemma push_accept_arr compact : forall l t p, length l = 13%nat -> arr_dec (push_members compact) l t = (p, true) ->
  l = map (fun m => m_enc m p) (push_members compact) /\ push_typed p.
Proof.
  intros l t p L H. do 13 (destruct l as [|? l]; [discriminate|]). destruct l; [|discriminate]. clear L.
  destruct compact; unfold push_members, ad_members, info_head, perc_members, info_tail, info_tail_compact, f_min, f_max, f_lossy, base in *; cbn [map app] in H;
  destruct t as [n [[] [] d]]; do 13 arr_step H; cbn [arr_dec] in H; injection H as <-; (split; [reflexivity|]); unfold push_typed, info_typed, perc_typed; cbn; auto 12.
Qed.
Lemma push_accept compact j t p : whole compact j -> c_dec (c_push compact) j t = (p, true) -> j = (if compact then jpush_compact p else jpush p) /\ push_typed p.
Proof.
  intros Hw H. rewrite <- enc_push. destruct j as [| | |l|l]; try contradiction; destruct Hw as [-> L]; cbn [c_push c_dec c_enc c_array c_object] in *.
  - apply push_accept_arr in H; [|exact L]. destruct H as [-> H]. auto.
  - rewrite (obj_as_arr false (push_members false) (push_uniq false) (push_members false)) in H; [|apply incl_refl|exact L].
    apply push_accept_arr in H; [|rewrite map_length; apply (f_equal (@length name)) in L; rewrite map_length in L; exact L]. destruct H as [E H]. split; [|exact H]. f_equal.
    unfold pairs. rewrite <- (combine_fst_snd l), E, L. reflexivity.
Qed.
Lemma batch_accept compact s lg d t m : (forall l, d = JArr l -> Forall (whole compact) l) -> c_dec (c_mpush compact) (batch compact s lg d) t = (m, true) ->
  batch compact s lg d = (if compact then jmpush_compact m else jmpush m) /\ Forall push_typed (mp_data m).
Proof.
  intros Hw H.
  assert (A : arr_dec (mpush_members compact) [s; lg; d] t = (m, true)).
  { destruct compact; [exact H|]. cbn [c_mpush c_dec c_object batch] in H. rewrite (obj_as_arr false (mpush_members false) (mpush_uniq false) (mpush_members false)) in H; [exact H|apply incl_refl|reflexivity]. }
  clear H. unfold mpush_members in A. destruct t as [ts tl td]. do 3 arr_step A. apply vec_dec_arr in E as (l & -> & F). cbn [arr_dec] in A. injection A as <-. cbn [mp_data].
  specialize (Hw l eq_refl).
  assert (X : l = map (fun p => if compact then jpush_compact p else jpush p) a1 /\ Forall push_typed a1).
  { clear - F Hw. induction F as [|j p l r E F IH]; [split; [reflexivity|constructor]|]. inversion Hw; subst. destruct (IH H2) as [-> K].
    apply push_accept in E as [-> E]; [|assumption]. split; [reflexivity|constructor; assumption]. }
  destruct X as [-> X]. split; [|exact X]. destruct compact; reflexivity.
Qed.
Lemma bool_dec j x a : c_dec c_bool j x = (a, true) -> j = JBool a.
Proof. destruct j; cbn [c_dec c_bool]; try discriminate. intros H. injection H as <-. reflexivity. Qed.
(* ---- end of proof ---- *)

(** A record with all its members is accepted exactly if it is the text of a record whose fields fit their types - then that record is what
    the receiver has.  In particular no element of its data is skipped or altered. *)
Theorem C55_exact : forall esc parse, wjson_ok esc parse -> forall compact j t p rest, whole compact j -> keys_plain j = true -> no_digit rest ->
  (read parse (c_push compact) (jprint esc j ++ rest) t = (p, true) <-> j = (if compact then jpush_compact p else jpush p) /\ push_typed p).
Proof.
  intros esc parse W compact j t p rest Hw K N. split.
  - rewrite (read_json esc parse W) by assumption. apply push_accept. exact Hw.
  - intros [-> T]. apply C55_push; assumption.
Qed.
Print Assumptions C55_exact.

(** A batch of such records likewise; one record, name or number that cannot be read makes the whole text an error. *)
Theorem C55_exact_batch : forall esc parse, wjson_ok esc parse -> forall compact s lg d t m rest,
  (forall l, d = JArr l -> Forall (whole compact) l) -> keys_plain (batch compact s lg d) = true -> no_digit rest ->
  (read parse (c_mpush compact) (jprint esc (batch compact s lg d) ++ rest) t = (m, true) <->
   batch compact s lg d = (if compact then jmpush_compact m else jmpush m) /\ Forall push_typed (mp_data m)).
Proof.
  intros esc parse W compact s lg d t m rest Hw K N. split.
  - rewrite (read_json esc parse W) by assumption. apply batch_accept. exact Hw.
  - intros [E T]. rewrite E. apply (C55_multi_push esc parse W compact); assumption.
Qed.
Print Assumptions C55_exact_batch.

(** The other requests and responses with all their members. *)
Theorem C55_exact_others : forall esc parse, wjson_ok esc parse -> forall (compact : bool) rest, no_digit rest ->
  let text (l : list (name * json)) := jprint esc (if compact then JArr (map snd l) else JObj l) ++ rest in
  (forall j t names, keys_plain j = true -> read parse (c_del compact) (text [(str "names", j)]) t = (names, true) <-> j = JArr (map JStr names)) /\
  (forall j t b, keys_plain j = true -> read parse (c_push_res compact) (text [(str "status", j)]) t = (b, true) <-> j = JBool b) /\
  (forall j k t m, keys_plain j = true -> keys_plain k = true ->
     read parse (c_mpush_res compact) (text [(str "status", j); (str "error", k)]) t = (m, true) <-> j = JBool (mr_status m) /\ k = JStr (mr_error m)).
Proof.
  intros esc parse W compact rest N text. split; [|split].
  - intros j t names K. unfold text. rewrite (read_json esc parse W) by (destruct compact; cbn; rewrite ?K; auto). split.
    + intros H. destruct compact; cbn [c_del c_array c_object c_dec map snd] in H.
      * unfold del_members in H. arr_step H. cbn [arr_dec] in H. injection H as <-. reflexivity.
      * rewrite (obj_as_arr false del_members ltac:(apply uniq_keys, nodup_b_ok; reflexivity) del_members (incl_refl _)) in H by reflexivity. cbn [map snd] in H.
        unfold del_members in H. arr_step H. cbn [arr_dec] in H. injection H as <-. reflexivity.
    + intros ->. pose proof (rt_del compact names t I) as R. destruct compact; exact R.
  - intros j t b K. unfold text. rewrite (read_json esc parse W) by (destruct compact; cbn; rewrite ?K; auto). split.
    + intros H. destruct j as [| b'| | |]; destruct compact; cbn in H; try discriminate; injection H as <-; reflexivity.
    + intros ->. destruct compact; reflexivity.
  - intros j k t m K1 K2. unfold text. rewrite (read_json esc parse W) by (destruct compact; cbn; rewrite ?K1, ?K2; auto). split.
    + intros H. destruct j as [| b'| | |]; destruct k as [| |e| |]; destruct compact; cbn in H; try discriminate; injection H as <-; auto.
    + destruct m as [b e]. cbn. intros [-> ->]. destruct compact; reflexivity.
Qed.
Print Assumptions C55_exact_others.

(** A record with a text among its data: complete, and refused; so is a batch with it between two good ones. *)
Definition bad_push : json := match jpush_compact pz with JArr l => JArr (removelast l ++ [JArr [JNum 6; JStr (str "7"); JNum 0]]) | j => j end.
Example C55_exact_witness : whole true bad_push /\ keys_plain bad_push = true /\ snd (read parse_std (c_push true) (jprint esc_std bad_push) push0) = false /\
  whole false (jpush pz) /\ read parse_std (c_push false) (jprint esc_std (jpush pz)) push0 = (pz, true) /\
  let d := JArr [jpush_compact pz; bad_push; jpush_compact pz] in
  (forall l, d = JArr l -> Forall (whole true) l) /\ keys_plain (batch true (JStr (str "~")) (JArr []) d) = true /\
  snd (read parse_std (c_mpush true) (jprint esc_std (batch true (JStr (str "~")) (JArr []) d)) (mk_mpush [] [] [])) = false.
Proof.
  split; [vm_compute; auto|]. split; [vm_compute; reflexivity|]. split; [vm_compute; reflexivity|]. split; [vm_compute; auto|]. split; [vm_compute; reflexivity|].
  cbv zeta. split; [|split; vm_compute; reflexivity]. intros l E. injection E as <-. repeat (constructor; [vm_compute; auto|]). constructor.
Qed.
Example C55_exact_others_witness : read parse_std (c_del true) (jprint esc_std (JArr [JArr [JStr (str "a")]])) [] = ([str "a"], true) /\
  snd (read parse_std (c_del true) (jprint esc_std (JArr [JArr [JStr (str "a"); JNum 1]])) []) = false /\ snd (read parse_std (c_push_res false) (jprint esc_std (JObj [(str "status", JNum 1)])) false) = false.
Proof. vm_compute. auto. Qed.
