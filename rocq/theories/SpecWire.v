(** What a program receives, and what arrives when it sends it on. *)
From Coq Require Import ZArith List Bool Arith Ascii.
From Verif Require Import Base ModelTypes ModelReducer SpecReducer ModelSeparator SpecSeparator ModelAggregator SpecAggregator
  ModelRegistry SpecRegistry ModelComposite ModelMeters ModelSystem SpecSystem ModelJson ModelPacker SpecPacker ModelCodec SpecCodec.
Import ListNotations.
Local Open Scope Z_scope.

(** The calls of the public interface of wrtstat, with any ids; what an initializer returned has its C++ types. *)
Definition env_typed (e : cenv) : Prop := match ce_init e with Some d => op_typed (OpAddRed d) | None => True end.
Definition y_open (op : yop) : Prop :=
  match op with
  | YMeterName e _ _ => env_typed e
  | YCompName _ e _ _ _ => forall k, env_typed (e k)
  | YReg g =>
      match g with
      | RgCreate e _ _ | RgAddName e _ _ _ _ => env_typed e
      | RgPopAll _ _ | RgEnable _ | RgDel _ | RgGetName _ | RgSetInit _ => True
      | RgCall _ (GoAdd (SmScalar _ _ _) _ _) | RgCall _ GoPop | RgCall _ GoForcePop => True
      | _ => False
      end
  | _ => True
  end.

(** Every record received. *)
Definition received_ev (e : yev) : list adata :=
  match e with
  | LHandler _ a => [a]
  | LAnswer _ _ (RCall o) => match out_ptr o with Some a => [a] | None => [] end
  | LAnswer _ _ (RNamed l) => map snd l
  | _ => []
  end.
Definition received_all (log : list yev) : list adata := flat_map received_ev log.
(** What the handler of the options was called with, in order. *)
Definition handed_over (log : list yev) : list (name * adata) := flat_map (fun e => match e with LHandler n a => [(n, a)] | _ => [] end) log.

(** The fields of a record fit together. *)
Definition well_ordered (d : adata) : Prop :=
  let p := ad_perc d in
  Forall (fun v => ad_min d <= v <= ad_max d) (ad_data d) /\
  (ad_data d <> [] -> ad_min d <= p50 p /\ p50 p <= p80 p /\ p80 p <= p95 p /\ p95 p <= p99 p /\ p99 p <= p100 p /\ p100 p <= ad_max d) /\
  (ad_data d = [] -> p = perc0).

(** Every call passes its records on through the handler: nothing is popped. *)
Definition unpopped (op : yop) : Prop :=
  match op with
  | YReg (RgCall _ GoPop) | YReg (RgCall _ GoForcePop) | YReg (RgPopAll _ _) => False
  | _ => True
  end.
(** What the receiver of a batch, sent as text, makes of it: it reads the text and expands the names; if either fails it has nothing. *)
Definition arrives (esc : name -> name) (parse : name -> option json) (jp : jparser) (compact_text : bool) (b : mpush) : list push :=
  match read parse (c_mpush compact_text) (mpush_text esc compact_text b) mpush0 with
  | (m, true) => match recompact jp m with (true, m') => mp_data m' | (false, _) => [] end
  | (_, false) => []
  end.
Definition as_push (q : name * adata) : push := mk_push (fst q) (snd q).
(** The records of name [n]. *)
Definition of_name (n : name) (l : list push) : list adata := flat_map (fun p => if name_eqb (pu_name p) n then [pu_data p] else []) l.
Definition no_pop (c : pcall) : Prop := match c with PPop _ => False | _ => True end.
