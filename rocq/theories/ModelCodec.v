(** Reading and writing JSON: wrtstat/api/*_json*.hpp, wrtstat/aggregator/api/json/*.hpp, the *_options_json.hpp files and
    wrtstat/options/load_options.cpp.
    wjson is not in /repo.  What is assumed of it: wjson::object writes its members in order and reads them in any order,
    each into the existing target, skipping unknown keys (in strict_mode an unknown key is an error); wjson::object_array writes and reads by
    position and leaves the remaining members alone if the array is short; vector_of/deque_of replace the target; an error
    stops the reading, what was read before it stays.  Simplified: an array longer than the member list is an error, and a value of
    the wrong type or out of the range of its C++ type is an error that leaves the target unchanged. *)
From Coq Require Import String Ascii ZArith NArith List Bool.
From Verif Require Import Base ModelTypes ModelReducer ModelSeparator ModelAggregator ModelRegistry ModelJson ModelPacker.
Import ListNotations.
Local Open Scope Z_scope.
Local Open Scope list_scope.

(** Reading into an existing value; [false]: an error was reported. *)
Record codec (A : Type) := mk_codec { c_enc : A -> json; c_dec : json -> A -> A * bool }.
Arguments mk_codec {A}. Arguments c_enc {A}. Arguments c_dec {A}.

(** wjson::value<T> for time_type/value_type, size_type, size_t (kept as nat), std::string, bool *)
Definition c_i64 : codec Z := mk_codec JNum (fun j x => match j with JNum z => if (- 2 ^ 63 <=? z) && (z <? 2 ^ 63) then (z, true) else (x, false) | _ => (x, false) end).
Definition c_u64 : codec Z := mk_codec JNum (fun j x => match j with JNum z => if (0 <=? z) && (z <? two64) then (z, true) else (x, false) | _ => (x, false) end).
Definition c_size : codec nat :=
  mk_codec (fun n => JNum (Z.of_nat n)) (fun j x => match j with JNum z => if (0 <=? z) && (z <? two64) then (Z.to_nat z, true) else (x, false) | _ => (x, false) end).
Definition c_str : codec name := mk_codec JStr (fun j x => match j with JStr s => (s, true) | _ => (x, false) end).
Definition c_bool : codec bool := mk_codec JBool (fun j x => match j with JBool b => (b, true) | _ => (x, false) end).
(** wjson::vector_of<...>, deque_of<...>; [a0]: a value-initialised element *)
Section Vec.
  Context {A : Type} (c : codec A) (a0 : A).
  Fixpoint vec_dec (l : list json) : list A * bool :=
    match l with
    | [] => ([], true)
    | j :: t => let '(a, ok) := c_dec c j a0 in
                if ok then let '(r, ok) := vec_dec t in (a :: r, ok) else ([], false)
    end.
  Definition c_vec : codec (list A) := mk_codec (fun l => JArr (map (c_enc c) l)) (fun j x => match j with JArr l => vec_dec l | _ => (x, false) end).
End Vec.
(** resolution_json, wrtstat/aggregator/options/resolution_json.hpp:22-37 *)
Definition res_text (r : resolution) : name :=
  str match r with RNone => "none" | RSeconds => "seconds" | RMillis => "milliseconds" | RMicros => "microseconds" | RNanos => "nanoseconds" end.
Definition c_res : codec resolution :=
  mk_codec (fun r => JStr (res_text r))
    (fun j x => match j with
                | JStr s => match find (fun r => name_eqb (res_text r) s) [RNone; RSeconds; RMillis; RMicros; RNanos] with Some r => (r, true) | None => (x, false) end
                | _ => (x, false)
                end).

(** wjson::member and wjson::member_array: a field of T *)
Record member (T : Type) := mk_member { m_key : name; m_enc : T -> json; m_dec : json -> T -> T * bool }.
Arguments mk_member {T}. Arguments m_key {T}. Arguments m_enc {T}. Arguments m_dec {T}.
Definition field {T A} (k : string) (c : codec A) (get : T -> A) (set : A -> T -> T) : member T :=
  mk_member (str k) (fun t => c_enc c (get t)) (fun j t => let '(a, ok) := c_dec c j (get t) in (set a t, ok)).
(** wjson::base<B>: the members of a base class *)
Definition base {T B} (get : T -> B) (set : B -> T -> T) (ms : list (member B)) : list (member T) :=
  map (fun m => mk_member (m_key m) (fun t => m_enc m (get t)) (fun j t => let '(b, ok) := m_dec m j (get t) in (set b t, ok))) ms.

Section Objects.
  Context {T : Type}.
  (** wjson::object *)
  Fixpoint obj_dec (strict : bool) (ms : list (member T)) (l : list (name * json)) (t : T) : T * bool :=
    match l with
    | [] => (t, true)
    | (k, j) :: l' =>
        match find (fun m => name_eqb (m_key m) k) ms with
        | None => if strict then (t, false) else obj_dec strict ms l' t
        | Some m => let '(t1, ok) := m_dec m j t in if ok then obj_dec strict ms l' t1 else (t1, false)
        end
    end.
  Definition pairs (ms : list (member T)) (t : T) : list (name * json) := map (fun m => (m_key m, m_enc m t)) ms.
  Definition c_object (strict : bool) (ms : list (member T)) : codec T :=
    mk_codec (fun t => JObj (pairs ms t)) (fun j t => match j with JObj l => obj_dec strict ms l t | _ => (t, false) end).
  (** wjson::object_array *)
  Fixpoint arr_dec (ms : list (member T)) (l : list json) (t : T) : T * bool :=
    match l, ms with
    | [], _ => (t, true)
    | _ :: _, [] => (t, false)
    | j :: l', m :: ms' => let '(t1, ok) := m_dec m j t in if ok then arr_dec ms' l' t1 else (t1, false)
    end.
  Definition c_array (ms : list (member T)) : codec T :=
    mk_codec (fun t => JArr (map (fun m => m_enc m t) ms)) (fun j t => match j with JArr l => arr_dec ms l t | _ => (t, false) end).
End Objects.

(** reduced_info_json: head_list, tail_list, reduced_info_json.hpp:20-30 *)
Definition info_head : list (member rinfo) :=
  [field "ts" c_i64 ri_ts (fun v i => mk_rinfo v (ri_count i) (ri_lossy i) (ri_min i) (ri_max i) (ri_avg i));
   field "avg" c_i64 ri_avg (fun v i => mk_rinfo (ri_ts i) (ri_count i) (ri_lossy i) (ri_min i) (ri_max i) v);
   field "count" c_u64 ri_count (fun v i => mk_rinfo (ri_ts i) v (ri_lossy i) (ri_min i) (ri_max i) (ri_avg i))].
Definition f_lossy : member rinfo := field "lossy" c_u64 ri_lossy (fun v i => mk_rinfo (ri_ts i) (ri_count i) v (ri_min i) (ri_max i) (ri_avg i)).
Definition f_min : member rinfo := field "min" c_i64 ri_min (fun v i => mk_rinfo (ri_ts i) (ri_count i) (ri_lossy i) v (ri_max i) (ri_avg i)).
Definition f_max : member rinfo := field "max" c_i64 ri_max (fun v i => mk_rinfo (ri_ts i) (ri_count i) (ri_lossy i) (ri_min i) v (ri_avg i)).
Definition info_tail : list (member rinfo) := [f_lossy; f_min; f_max].
(** reduced_info_json_compact: another order, reduced_info_json_compact.hpp:25-29 *)
Definition info_tail_compact : list (member rinfo) := [f_min; f_max; f_lossy].
(** aggregated_perc_json(_compact), aggregated_perc_json.hpp:24-32, aggregated_perc_json_compact.hpp:16-24 *)
Definition perc_members : list (member perc) :=
  [field "perc50" c_i64 p50 (fun v p => mk_perc v (p80 p) (p95 p) (p99 p) (p100 p));
   field "perc80" c_i64 p80 (fun v p => mk_perc (p50 p) v (p95 p) (p99 p) (p100 p));
   field "perc95" c_i64 p95 (fun v p => mk_perc (p50 p) (p80 p) v (p99 p) (p100 p));
   field "perc99" c_i64 p99 (fun v p => mk_perc (p50 p) (p80 p) (p95 p) v (p100 p));
   field "perc100" c_i64 p100 (fun v p => mk_perc (p50 p) (p80 p) (p95 p) (p99 p) v)].
(** aggregated_data_json(_compact): head, percentiles, tail, data; aggregated_data_json.hpp:18-25, reduced_data_json.hpp:18-23 *)
Definition ad_members (tail : list (member rinfo)) : list (member adata) :=
  let info := base ad_info (fun i a => mk_adata i (ad_perc a) (ad_data a)) in
  info info_head ++ base ad_perc (fun p a => mk_adata (ad_info a) p (ad_data a)) perc_members ++ info tail ++
  [field "data" (c_vec c_i64 0) ad_data (fun d a => mk_adata (ad_info a) (ad_perc a) d)].
(** reduced_data_json(_compact), reduced_data_json.hpp:14-35, reduced_data_json_compact.hpp:14-31 *)
Definition rd_members (tail : list (member rinfo)) : list (member rdata) :=
  base rd_info (fun i a => mk_rdata i (rd_data a)) (info_head ++ tail) ++ [field "data" (c_vec c_i64 0) rd_data (fun d a => mk_rdata (rd_info a) d)].
(** push_json(_compact), push_json.hpp:17-32, push_json_compact.hpp:17-30 *)
Definition push_members (compact : bool) : list (member push) :=
  field "name" c_str pu_name (fun n p => mk_push n (pu_data p)) ::
  base pu_data (fun a p => mk_push (pu_name p) a) (ad_members (if compact then info_tail_compact else info_tail)).
Definition rinfo0 : rinfo := mk_rinfo 0 0 0 0 0 0.
Definition push0 : push := mk_push [] (mk_adata rinfo0 perc0 []).
Definition c_push (compact : bool) : codec push := if compact then c_array (push_members true) else c_object false (push_members false).
(** multi_push_json(_compact), multi_push_json.hpp:17-34, multi_push_json_compact.hpp:17-30 *)
Definition mpush_members (compact : bool) : list (member mpush) :=
  [field "sep" c_str mp_sep (fun v m => mk_mpush v (mp_legend m) (mp_data m));
   field "legend" (c_vec c_str []) mp_legend (fun v m => mk_mpush (mp_sep m) v (mp_data m));
   field "data" (c_vec (c_push compact) push0) mp_data (fun v m => mk_mpush (mp_sep m) (mp_legend m) v)].
Definition c_mpush (compact : bool) : codec mpush := if compact then c_array (mpush_members true) else c_object false (mpush_members false).
(** request::del, response::push, response::multi_push: del.hpp:18-22, push.hpp:25-30, multi_push.hpp:28-35; their codecs:
    del_json.hpp:17-27, del_json_compact.hpp:17-24, push_json.hpp:38-50, multi_push_json.hpp:38-52 and the compact forms *)
Definition del_members : list (member (list name)) := [field "names" (c_vec c_str []) (fun d => d) (fun v _ => v)].
Definition c_del (compact : bool) : codec (list name) := if compact then c_array del_members else c_object false del_members.
Definition push_res_members : list (member bool) := [field "status" c_bool (fun d => d) (fun v _ => v)].
Definition c_push_res (compact : bool) : codec bool := if compact then c_array push_res_members else c_object false push_res_members.
Record mpush_res := mk_mpush_res { mr_status : bool; mr_error : name }.
Definition mpush_res_members : list (member mpush_res) :=
  [field "status" c_bool mr_status (fun v m => mk_mpush_res v (mr_error m)); field "error" c_str mr_error (fun v m => mk_mpush_res (mr_status m) v)].
Definition c_mpush_res (compact : bool) : codec mpush_res := if compact then c_array mpush_res_members else c_object false mpush_res_members.

(** ** Options *)
(** reducer_options_json.hpp:16-23; separator_options_json.hpp:18-27; aggregator_options_json.hpp:15-22 *)
Definition ropts_members : list (member ropts) :=
  [field "reducer_limit" c_size o_limit (fun v o => mk_ropts v (o_levels o) (o_mode o) (o_initial o));
   field "reducer_levels" c_size o_levels (fun v o => mk_ropts (o_limit o) v (o_mode o) (o_initial o))].
Definition sopts_members : list (member sopts) :=
  base so_red (fun v o => mk_sopts v (so_step o) (so_res o) (so_soiled o)) ropts_members ++
  [field "aggregation_step_ts" c_i64 so_step (fun v o => mk_sopts (so_red o) v (so_res o) (so_soiled o));
   field "soiled_start_ts" c_i64 so_soiled (fun v o => mk_sopts (so_red o) (so_step o) (so_res o) v);
   field "resolution" c_res so_res (fun v o => mk_sopts (so_red o) (so_step o) v (so_soiled o))].
Definition aopts_members : list (member aopts) :=
  base ao_sep (fun v o => mk_aopts v (ao_out o)) sopts_members ++
  [field "outgoing_reduced_size" c_size ao_out (fun v o => mk_aopts (ao_sep o) v)].
(** wrtstat_options with its bases, wrtstat_options.hpp:8-14, registry_options.hpp:9-20; [wo_handler]: handler is not null *)
Record wopts := mk_wopts { wo_rg : rgopts; wo_pool : nat; wo_handler : bool }.
(** registry_options_json.hpp:15-22, wrtstat_options_json.hpp:14-22 *)
Definition wopts_members : list (member wopts) :=
  base (fun o => rgo_agg (wo_rg o)) (fun v o => mk_wopts (mk_rgopts v (rgo_init (wo_rg o)) (rgo_step (wo_rg o)) (rgo_initializer (wo_rg o))) (wo_pool o) (wo_handler o)) aopts_members ++
  [field "pool_size" c_size wo_pool (fun v o => mk_wopts (wo_rg o) v (wo_handler o))].
Definition c_wopts : codec wopts := c_object true wopts_members.
(** The default member initialisers: reducer_options.hpp:14-17, separator_options.hpp:10-19, aggregator_options.hpp:10,
    registry_options.hpp:14-19, wrtstat_options.hpp:13 *)
Definition wopts0 : wopts :=
  mk_wopts (mk_rgopts (mk_aopts (mk_sopts (mk_ropts (Z.to_nat 4096) (Z.to_nat 256) Adapt Adapt) 1 RSeconds 0) (Z.to_nat 128)) 0 1 false) 0 false.

(** packer_options_json.hpp:23-33 *)
Definition popts_members : list (member popts) :=
  [field "push_limit" c_u64 po_push (fun v o => mk_popts v (po_data o) (po_json o) (po_jcompact o) (po_sep o) (po_ncompact o));
   field "data_limit" c_u64 po_data (fun v o => mk_popts (po_push o) v (po_json o) (po_jcompact o) (po_sep o) (po_ncompact o));
   field "json_limit" c_u64 po_json (fun v o => mk_popts (po_push o) (po_data o) v (po_jcompact o) (po_sep o) (po_ncompact o));
   field "json_compact" c_bool po_jcompact (fun v o => mk_popts (po_push o) (po_data o) (po_json o) v (po_sep o) (po_ncompact o));
   field "name_sep" c_str po_sep (fun v o => mk_popts (po_push o) (po_data o) (po_json o) (po_jcompact o) v (po_ncompact o));
   field "name_compact" c_bool po_ncompact (fun v o => mk_popts (po_push o) (po_data o) (po_json o) (po_jcompact o) (po_sep o) v)].
Definition c_popts : codec popts := c_object false popts_members.
(** multi_aggregator_options.hpp:14-19, multi_aggregator_options_json.hpp:15-24 *)
Record maoptions := mk_maoptions { mo_agg : aopts; mo_pool : nat; mo_hash : nat }.
Definition maopts_members : list (member maoptions) :=
  base mo_agg (fun v o => mk_maoptions v (mo_pool o) (mo_hash o)) aopts_members ++
  [field "pool_size" c_size mo_pool (fun v o => mk_maoptions (mo_agg o) v (mo_hash o));
   field "hash_size" c_size mo_hash (fun v o => mk_maoptions (mo_agg o) (mo_pool o) v)].
Definition c_maopts : codec maoptions := c_object true maopts_members.

(** ** Texts.  [esc] escapes a string, [parse] reads the JSON value a text starts with. *)
Section Text.
  Variable esc : name -> name.
  Variable parse : name -> option json.
  Definition write {A} (c : codec A) (a : A) : name := jprint esc (c_enc c a).
  Definition read {A} (c : codec A) (s : name) (a : A) : A * bool := match parse s with None => (a, false) | Some j => c_dec c j a end.

  (** wjson::parser::parse_space (blanks only; comments are not modelled) *)
  Definition is_space (c : ascii) : bool := let n := nat_of_ascii c in ((n =? 32) || (n =? 9) || (n =? 10) || (n =? 13))%nat.
  Fixpoint skip_ws (s : name) : name := match s with [] => [] | c :: t => if is_space c then skip_ws t else s end.
  Definition is_object (s : name) : bool := match s with c :: _ => (nat_of_ascii c =? 123)%nat | [] => false end.
  (** load_options(path_or_json, opt, err), load_options.cpp:16-52; [fs]: what a file contains, if it can be read.  *err is not modelled. *)
  Definition load (fs : name -> option name) (arg : name) (o : wopts) : bool * wopts :=
    let beg := skip_ws arg in
    if is_object beg then let '(o1, ok) := read c_wopts beg o in (ok, o1)
    else match fs arg with
         | None => (false, o)
         | Some text => let '(o1, ok) := read c_wopts text o in (ok, o1)
         end.
  (** load_options(path_or_json, err), load_options.cpp:54-60 *)
  Definition load_options (fs : name -> option name) (arg : name) : wopts :=
    let '(ok, o) := load fs arg wopts0 in if ok then o else wopts0.
  (** serialize_options, load_options.cpp:62-67 *)
  Definition serialize_options (o : wopts) : name := write c_wopts o.
End Text.
