(** The JSON texts, written out: names of the members, order, punctuation. *)
From Coq Require Import String Ascii ZArith NArith List Bool.
From Verif Require Import Base ModelTypes ModelReducer ModelSeparator ModelAggregator ModelRegistry ModelInfo ModelJson ModelPacker ModelCodec
  ModelRecords SpecRecords.
Import ListNotations.
Local Open Scope list_scope.

(** {"key":value,...} and [value,...] *)
Definition wire_key (s : string) : name := str """" ++ str s ++ str """:".
Definition wire_obj (l : list (string * name)) : name := str "{" ++ commas (map (fun p => wire_key (fst p) ++ snd p) l) ++ str "}".
Definition wire_arr (l : list name) : name := str "[" ++ commas l ++ str "]".
(** The decimal numeral of an integer: digits without superfluous zeros, a minus sign in front if it is negative.  wire_num is shown to give
    it (C55_numbers). *)
Definition digit_value (c : ascii) : Z := Z.of_nat (nat_of_ascii c) - 48.
Definition digits_value (s : name) : Z := fold_left (fun a c => 10 * a + digit_value c)%Z s 0%Z.
Definition numeral (z : Z) (s : name) : Prop :=
  exists ds, s = (if (z <? 0)%Z then ["-"%char] else []) ++ ds /\ ds <> [] /\ Forall (fun c => 0 <= digit_value c <= 9)%Z ds /\
    (forall t, ds = "0"%char :: t -> t = []) /\ digits_value ds = Z.abs z.
Definition wire_num (z : Z) : name := dec_Z z.
Definition wire_size (n : nat) : name := wire_num (Z.of_nat n).
Definition wire_bool (b : bool) : name := if b then str "true" else str "false".
Definition wire_str (esc : name -> name) (s : name) : name := str """" ++ esc s ++ str """".

(** The values of a record by the names of its members, in the order of the named form. *)
Definition wire_percs (p : perc) : list (string * name) :=
  [("perc50"%string, wire_num (p50 p)); ("perc80"%string, wire_num (p80 p)); ("perc95"%string, wire_num (p95 p));
   ("perc99"%string, wire_num (p99 p)); ("perc100"%string, wire_num (p100 p))].
Definition wire_head (i : rinfo) : list (string * name) :=
  [("ts"%string, wire_num (ri_ts i)); ("avg"%string, wire_num (ri_avg i)); ("count"%string, wire_num (ri_count i))].
Definition wire_lossy (i : rinfo) : list (string * name) := [("lossy"%string, wire_num (ri_lossy i))].
Definition wire_range (i : rinfo) : list (string * name) := [("min"%string, wire_num (ri_min i)); ("max"%string, wire_num (ri_max i))].
(** The compact form has the number of lost measurements behind the extremes. *)
Definition wire_fields (esc : name -> name) (compact : bool) (k : kind) (p : push) : list (string * name) :=
  let d := pu_data p in let i := ad_info d in
  (if has_name k then [("name"%string, wire_str esc (pu_name p))] else []) ++
  (if has_info k then wire_head i else []) ++
  (if has_perc k then wire_percs (ad_perc d) else []) ++
  (if has_info k then (if compact then wire_range i ++ wire_lossy i else wire_lossy i ++ wire_range i) else []) ++
  (if has_data k then [("data"%string, wire_arr (map wire_num (ad_data d)))] else []).
Definition wire (compact : bool) (l : list (string * name)) : name := if compact then wire_arr (map snd l) else wire_obj l.

(** The names of the resolutions. *)
Definition wire_res (r : resolution) : name :=
  match r with RNone => str "none" | RSeconds => str "seconds" | RMillis => str "milliseconds" | RMicros => str "microseconds" | RNanos => str "nanoseconds" end.
Definition wire_options (esc : name -> name) (a : aopts) : list (string * name) :=
  let s := ao_sep a in let r := so_red s in
  [("reducer_limit"%string, wire_size (o_limit r)); ("reducer_levels"%string, wire_size (o_levels r));
   ("aggregation_step_ts"%string, wire_num (so_step s)); ("soiled_start_ts"%string, wire_num (so_soiled s));
   ("resolution"%string, wire_str esc (wire_res (so_res s))); ("outgoing_reduced_size"%string, wire_size (ao_out a))].
