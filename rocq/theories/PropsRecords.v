(** C79: records written as JSON on their own, and read by a receiver that knows another kind of record. *)
From Coq Require Import String Ascii ZArith NArith List Bool Lia.
From Verif Require Import Base ModelTypes ModelInfo ModelJson ModelPacker SpecPacker ModelCodec SpecCodec PackName CodecProofs CodecRound PropsCodec ModelRecords SpecRecords.
Import ListNotations.
Local Open Scope Z_scope.
Local Open Scope list_scope.

Lemma rt_ints : rt (c_vec c_i64 0) (Forall int64).
Proof. apply rt_vec, rt_i64. Qed.
Lemma keys_of compact k p : keys_plain (c_enc (codec_of compact k) (part k p)) = true.
Proof. destruct p as [n [[] [] d]]. destruct compact, k; cbn; rewrite ?keys_nums; reflexivity. Qed.
Ltac reads :=
  repeat (cbn -[c_i64 c_u64 c_vec c_str]; first [rewrite rt_i64 by assumption|rewrite rt_u64 by assumption|rewrite rt_ints by assumption|rewrite rt_str by exact I]);
  try reflexivity.
Ltac typed H := let A := fresh in let B := fresh in let C := fresh in destruct H as [A [B C]]; unfold info_typed, perc_typed in *; cbn in A, B, C;
  repeat match goal with H : _ /\ _ |- _ => destruct H end.

(** The named form of any kind of record, read into a record of any kind: the fields both have are the sender's, the others stay. *)
Theorem C79_named : forall esc parse, wjson_ok esc parse -> forall sent known p t rest, push_typed p -> no_digit rest ->
  read parse (codec_of false known) (write esc (codec_of false sent) (part sent p) ++ rest) (part known t) = (part known (overlay sent p t), true).
Proof.
  intros esc parse W k1 k2 p t rest T N. unfold write. rewrite (read_json esc parse W) by auto using keys_of.
  destruct p as [n [[] [] d]], t as [n' [[] [] d']]. unfold push_typed in T. typed T. destruct k1, k2; reads.
Qed.
Print Assumptions C79_named.

(** A record of one kind, in either form, is read back exactly, into any target. *)
Theorem C79_round_trip : forall esc parse, wjson_ok esc parse -> forall compact k p t rest, push_typed p -> no_digit rest ->
  read parse (codec_of compact k) (write esc (codec_of compact k) (part k p) ++ rest) (part k t) = (part k p, true).
Proof.
  intros esc parse W compact k p t rest T N. destruct compact.
  - unfold write. rewrite (read_json esc parse W) by auto using keys_of. destruct p as [n [[] [] d]], t as [n' [[] [] d']]. unfold push_typed in T. typed T. destruct k; reads.
  - rewrite (C79_named esc parse W) by assumption. destruct p as [n [i q d]], k; reflexivity.
Qed.
Print Assumptions C79_round_trip.
(** The response to a deletion has no content. *)
Theorem C79_del_response : forall esc parse, wjson_ok esc parse -> forall compact rest, no_digit rest ->
  read parse (c_del_res compact) (write esc (c_del_res compact) tt ++ rest) tt = (tt, true).
Proof. intros esc parse W compact rest N. unfold write. rewrite (read_json esc parse W) by (exact N || (destruct compact; reflexivity)). destruct compact; reflexivity. Qed.
Print Assumptions C79_del_response.
(** In the compact form only the sampled values may be left out: a record without them is read into one that has them. *)
Theorem C79_compact_without_data : forall esc parse, wjson_ok esc parse -> forall p t rest, push_typed p -> no_digit rest ->
  read parse (c_rdata true) (write esc (c_rinfo true) (part KInfo p) ++ rest) (part KRData t) = (part KRData (overlay KInfo p t), true) /\
  read parse (c_adata true) (write esc (c_ainfo true) (part KAInfo p) ++ rest) (part KAData t) = (part KAData (overlay KAInfo p t), true).
Proof.
  intros esc parse W p t rest T N. unfold write.
  rewrite (read_json esc parse W) by (exact N || exact (keys_of true KInfo p)). rewrite (read_json esc parse W) by (exact N || exact (keys_of true KAInfo p)).
  destruct p as [n [[] [] d]], t as [n' [[] [] d']]. unfold push_typed in T. typed T. split; reads.
Qed.
Print Assumptions C79_compact_without_data.
(** The two forms are never taken for one another: the receiver reports an error and its record stays. *)
Theorem C79_other_form : forall esc parse, wjson_ok esc parse -> forall compact sent known p t rest, no_digit rest ->
  read parse (codec_of (negb compact) known) (write esc (codec_of compact sent) (part sent p) ++ rest) t = (t, false).
Proof.
  intros esc parse W compact sent known p t rest N. unfold write. rewrite (read_json esc parse W) by auto using keys_of. destruct compact, sent, known; reflexivity.
Qed.
Print Assumptions C79_other_form.

(** Compact records of different kinds are mistaken for one another without an error: the extremes of a reduced_info become the percentiles of an aggregated_info. *)
Theorem C79_compact_refuted : exists p t, push_typed p /\ push_typed t /\
  let r := read parse_std (c_ainfo true) (write esc_std (c_rinfo true) (part KInfo p)) (part KAInfo t) in
  snd r = true /\ ri_min (ai_info (fst r)) <> ri_min (part KInfo p) /\ p50 (ai_perc (fst r)) = ri_min (part KInfo p) /\
  p80 (ai_perc (fst r)) = ri_max (part KInfo p) /\ p95 (ai_perc (fst r)) = ri_lossy (part KInfo p).
Proof. exists pz, push0. split; [exact pz_typed|]. split; [unfold push_typed, info_typed, perc_typed, int64, uint64; cbn; repeat split; try lia; constructor|]. vm_compute. repeat split; congruence. Qed.
Print Assumptions C79_compact_refuted.

Example C79_witness : push_typed pz /\ no_digit (str ", x") /\
  write esc_std (c_ainfo true) (part KAInfo pz) = str "[-3,5,18446744073709551615,1,2,3,4,5,-9223372036854775808,9223372036854775807,2]" /\
  write esc_std (c_rinfo false) (part KInfo pz) = str "{""ts"":-3,""avg"":5,""count"":18446744073709551615,""lossy"":2,""min"":-9223372036854775808,""max"":9223372036854775807}" /\
  read parse_std (c_ainfo false) (write esc_std (c_rdata false) (part KRData pz) ++ str ", x") (mk_ainfo rinfo0 (mk_perc 10 20 30 40 50)) = (mk_ainfo (ad_info (pu_data pz)) (mk_perc 10 20 30 40 50), true) /\
  read parse_std (c_adata true) (write esc_std (c_ainfo true) (part KAInfo pz)) (mk_adata rinfo0 perc0 [9]) = (mk_adata (ad_info (pu_data pz)) (ad_perc (pu_data pz)) [9], true).
Proof. split; [exact pz_typed|]. split; [reflexivity|]. vm_compute. repeat split. Qed.
