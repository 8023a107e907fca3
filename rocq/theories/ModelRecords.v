(** The records on their own: reduced_info, aggregated_perc, reduced_data, aggregated_info, aggregated_data and request::push, and the
    empty response::del; wrtstat/aggregator/api/json/*.hpp, wrtstat/api/del_json*.hpp. *)
From Coq Require Import String Ascii ZArith NArith List Bool.
From Verif Require Import Base ModelTypes ModelInfo ModelJson ModelPacker ModelCodec.
Import ListNotations.
Local Open Scope list_scope.

Definition tail_of (compact : bool) : list (member rinfo) := if compact then info_tail_compact else info_tail.
Definition form {T} (compact : bool) (ms : list (member T)) : codec T := if compact then c_array ms else c_object false ms.
(** reduced_info_json.hpp:32-41, reduced_info_json_compact.hpp:31-40 *)
Definition c_rinfo (compact : bool) : codec rinfo := form compact (info_head ++ tail_of compact).
(** aggregated_perc_json.hpp:24-36, aggregated_perc_json_compact.hpp:14-27 *)
Definition c_perc (compact : bool) : codec perc := form compact perc_members.
(** reduced_data_json.hpp:23-34, reduced_data_json_compact.hpp:21-32 *)
Definition c_rdata (compact : bool) : codec rdata := form compact (rd_members (tail_of compact)).
(** aggregated_info_json.hpp:16-28, aggregated_info_json_compact.hpp:17-28 *)
Definition ai_members (tail : list (member rinfo)) : list (member ainfo) :=
  let info := base ai_info (fun i a => mk_ainfo i (ai_perc a)) in
  info info_head ++ base ai_perc (fun p a => mk_ainfo (ai_info a) p) perc_members ++ info tail.
Definition c_ainfo (compact : bool) : codec ainfo := form compact (ai_members (tail_of compact)).
(** aggregated_data_json.hpp:16-28, aggregated_data_json_compact.hpp:16-28 *)
Definition c_adata (compact : bool) : codec adata := form compact (ad_members (tail_of compact)).
(** response::del has no members: del.hpp:27-31, del_json.hpp:34-43, del_json_compact.hpp:31-40 *)
Definition c_del_res (compact : bool) : codec unit := form compact [].
