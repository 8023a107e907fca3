(** Data records exchanged by the API. *)
From Coq Require Import ZArith List.
Import ListNotations.
Local Open Scope Z_scope.

(** reduced_info, wrtstat/aggregator/api/reduced_info.hpp:6-21 *)
Record rinfo := mk_rinfo {
  ri_ts : Z; ri_count : Z; ri_lossy : Z; ri_min : Z; ri_max : Z; ri_avg : Z }.

(** aggregated_perc, wrtstat/aggregator/api/aggregated_perc.hpp:6-13 *)
Record perc := mk_perc { p50 : Z; p80 : Z; p95 : Z; p99 : Z; p100 : Z }.
Definition perc0 : perc := mk_perc 0 0 0 0 0.

(** reduced_data = reduced_info + data, wrtstat/aggregator/api/reduced_data.hpp:7-10 *)
Record rdata := mk_rdata { rd_info : rinfo; rd_data : list Z }.

(** aggregated_data = reduced_data + aggregated_perc, wrtstat/aggregator/api/aggregated_data.hpp:10-16 *)
Record adata := mk_adata { ad_info : rinfo; ad_perc : perc; ad_data : list Z }.

Definition ad_ts (a : adata) := ri_ts (ad_info a).
Definition ad_count (a : adata) := ri_count (ad_info a).
Definition ad_lossy (a : adata) := ri_lossy (ad_info a).
Definition ad_min (a : adata) := ri_min (ad_info a).
Definition ad_max (a : adata) := ri_max (ad_info a).
Definition ad_avg (a : adata) := ri_avg (ad_info a).

(** res->ts = t; *)
Definition ad_set_ts (t : Z) (a : adata) : adata :=
  let i := ad_info a in
  mk_adata (mk_rinfo t (ri_count i) (ri_lossy i) (ri_min i) (ri_max i) (ri_avg i)) (ad_perc a) (ad_data a).

(** Slicing an aggregated_data to reduced_data. *)
Definition ad_reduced (a : adata) : rdata := mk_rdata (ad_info a) (ad_data a).

(** enum class resolutions, wrtstat/aggregator/api/types.hpp:19-26 *)
Inductive resolution := RNone | RSeconds | RMillis | RMicros | RNanos.
Definition res_none (r : resolution) : bool := match r with RNone => true | _ => false end.
