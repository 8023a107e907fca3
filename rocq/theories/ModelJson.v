(** The JSON forms of push and multi_push: wrtstat/api/*_json*.hpp, wrtstat/aggregator/api/json/*.hpp.
    The wjson library is not part of /repo.  It is modelled by the text it writes: objects as {"key":value,...} in member
    order, arrays as [value,...], integers in decimal, strings quoted and escaped, no white space.  How a string is
    escaped is a parameter [esc]. *)
From Coq Require Import String Ascii ZArith NArith List Bool DecimalN.
From Verif Require Import Base ModelTypes ModelRegistry.
Import ListNotations.
Local Open Scope Z_scope.
Local Open Scope list_scope.

Definition str (s : string) : name := list_ascii_of_string s.

(** Decimal text of a size_t (operator<< in the "C" locale) and of an integer in JSON. *)
Fixpoint uint_text (d : Decimal.uint) : name :=
  match d with
  | Decimal.Nil => []
  | Decimal.D0 d => "0"%char :: uint_text d | Decimal.D1 d => "1"%char :: uint_text d
  | Decimal.D2 d => "2"%char :: uint_text d | Decimal.D3 d => "3"%char :: uint_text d
  | Decimal.D4 d => "4"%char :: uint_text d | Decimal.D5 d => "5"%char :: uint_text d
  | Decimal.D6 d => "6"%char :: uint_text d | Decimal.D7 d => "7"%char :: uint_text d
  | Decimal.D8 d => "8"%char :: uint_text d | Decimal.D9 d => "9"%char :: uint_text d
  end.
Definition dec (n : N) : name := uint_text (N.to_uint n).
Definition dec_Z (z : Z) : name := if z <? 0 then "-"%char :: dec (Z.to_N (- z)) else dec (Z.to_N z).

(** JSON values *)
Inductive json := JNum (z : Z) | JBool (b : bool) | JStr (s : name) | JArr (l : list json) | JObj (l : list (name * json)).

Fixpoint commas (l : list name) : name :=
  match l with
  | [] => []
  | [x] => x
  | x :: t => x ++ ","%char :: commas t
  end.
Definition quote : ascii := ascii_of_nat 34.

Section Print.
  Variable esc : name -> name.
  Fixpoint jprint (j : json) : name :=
    match j with
    | JNum z => dec_Z z
    | JBool b => str (if b then "true" else "false")
    | JStr s => quote :: esc s ++ [quote]
    | JArr l => "["%char :: commas (map jprint l) ++ ["]"%char]
    | JObj l => "{"%char :: commas (map (fun p => quote :: fst p ++ quote :: ":"%char :: jprint (snd p)) l) ++ ["}"%char]
    end.
End Print.

(** Standard JSON escaping, used in examples only: the quote, the backslash and the control characters. *)
Definition hex (n : nat) : ascii := ascii_of_nat (if (n <? 10)%nat then 48 + n else 87 + n)%nat.
Definition esc_char (c : ascii) : name :=
  let n := nat_of_ascii c in
  if (n =? 34)%nat || (n =? 92)%nat then [ascii_of_nat 92; c]
  else if (n <? 32)%nat then ascii_of_nat 92 :: str "u00" ++ [hex (n / 16); hex (n mod 16)]
  else [c].
Definition esc_std (s : name) : name := flat_map esc_char s.

(** request::push, wrtstat/api/push.hpp:16-20 *)
Record push := mk_push { pu_name : name; pu_data : adata }.
(** request::multi_push, wrtstat/api/multi_push.hpp:15-24 *)
Record mpush := mk_mpush { mp_sep : name; mp_legend : list name; mp_data : list push }.
Definition sep0 : name := str "~~".
Definition mpush0 : mpush := mk_mpush sep0 [] [].

(** data_json: vector_of<value>, reduced_data_json.hpp:18 *)
Definition jdata (l : list Z) : json := JArr (map JNum l).
(** push_json: name, then aggregated_data_json = head_list, percentiles, tail_list;
    push_json.hpp:17-32, aggregated_data_json.hpp:16-29, reduced_data_json.hpp:14-35, reduced_info_json.hpp:13-44,
    aggregated_perc_json.hpp:16-37 *)
Definition jpush (p : push) : json :=
  let a := pu_data p in
  JObj [(str "name", JStr (pu_name p));
        (str "ts", JNum (ad_ts a)); (str "avg", JNum (ad_avg a)); (str "count", JNum (ad_count a));
        (str "perc50", JNum (p50 (ad_perc a))); (str "perc80", JNum (p80 (ad_perc a)));
        (str "perc95", JNum (p95 (ad_perc a))); (str "perc99", JNum (p99 (ad_perc a)));
        (str "perc100", JNum (p100 (ad_perc a)));
        (str "lossy", JNum (ad_lossy a)); (str "min", JNum (ad_min a)); (str "max", JNum (ad_max a));
        (str "data", jdata (ad_data a))].
(** push_json_compact; push_json_compact.hpp:17-31, aggregated_data_json_compact.hpp:16-29,
    reduced_data_json_compact.hpp:14-33, reduced_info_json_compact.hpp:14-41, aggregated_perc_json_compact.hpp:14-29.
    Note the order min, max, lossy. *)
Definition jpush_compact (p : push) : json :=
  let a := pu_data p in
  JArr [JStr (pu_name p); JNum (ad_ts a); JNum (ad_avg a); JNum (ad_count a);
        JNum (p50 (ad_perc a)); JNum (p80 (ad_perc a)); JNum (p95 (ad_perc a)); JNum (p99 (ad_perc a));
        JNum (p100 (ad_perc a)); JNum (ad_min a); JNum (ad_max a); JNum (ad_lossy a); jdata (ad_data a)].
(** multi_push_json, multi_push_json.hpp:17-34; multi_push_json_compact, multi_push_json_compact.hpp:17-30 *)
Definition jmpush (m : mpush) : json :=
  JObj [(str "sep", JStr (mp_sep m)); (str "legend", JArr (map JStr (mp_legend m)));
        (str "data", JArr (map jpush (mp_data m)))].
Definition jmpush_compact (m : mpush) : json :=
  JArr [JStr (mp_sep m); JArr (map JStr (mp_legend m)); JArr (map jpush_compact (mp_data m))].

(** The serialised texts. *)
Definition push_text (esc : name -> name) (compact : bool) (p : push) : name :=
  jprint esc (if compact then jpush_compact p else jpush p).
Definition mpush_text (esc : name -> name) (compact : bool) (m : mpush) : name :=
  jprint esc (if compact then jmpush_compact m else jmpush m).
