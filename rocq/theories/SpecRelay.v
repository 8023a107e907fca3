(** Records sent on: a receiver feeds what arrives into its own multi_aggregator. *)
From Coq Require Import ZArith List Bool Arith Ascii.
From Verif Require Import Base ModelTypes ModelReducer SpecReducer ModelSeparator SpecSeparator ModelAggregator SpecAggregator ModelRegistry ModelMulti SpecMulti
  ModelComposite ModelMeters ModelSystem SpecSystem SpecRegistry ModelJson ModelPacker SpecPacker ModelCodec SpecCodec SpecWire SpecMulti.
Import ListNotations.
Local Open Scope Z_scope.

(** The records pushed under [n], by push and multi_push, in order. *)
Definition fed1 (n : name) (op : mop) : list rdata :=
  match op with
  | MPush _ m d _ => if name_eqb n m then [d] else []
  | MMulti ps _ => of_name n (map snd ps)
  | _ => []
  end.
Definition fed (n : name) (ops : list mop) : list rdata := flat_map (fed1 n) ops.
(** A request as the multi_aggregator sees it: a name and a reduced_data (its base class). *)
Definition reduced_of (a : adata) : rdata := mk_rdata (ad_info a) (ad_data a).
Definition fed_time (d : rdata) : Z := ri_ts (rd_info d).
Definition fed_typed (d : rdata) : Prop := op_typed (OpAddRed d).
(** The values of a record lie between its extremes, and 0 is not one of these (0 is taken for "unknown", C13). *)
Definition plain_extremes (d : rdata) : Prop :=
  ri_min (rd_info d) <> 0 /\ ri_max (rd_info d) <> 0 /\ ri_min (rd_info d) <= ri_max (rd_info d) /\
  Forall (fun v => ri_min (rd_info d) <= v <= ri_max (rd_info d)) (rd_data d).

(** One sender, as in C74: a program using wrtstat from construction to destruction, a packer for what its handler gets, and the texts it
    sends.  [arrived]: what its receiver reads from them; [made]: the measurements it made for [n]. *)
Definition sender (ne : nat -> list Z -> list Z) (esc : name -> name) (parse : name -> option json) (jp : jparser) (n : name)
    (arrived : list push) (made : list rop) : Prop :=
  exists o ops log s clk log2 s2 po cs rs p compact_text,
    0 < so_step (ao_sep (rgo_agg o)) /\ rgo_initializer o = false /\ fits o (list_sum (map creations ops)) /\
    Forall (y_public o) ops /\ Forall y_open ops /\ Forall (kept n) ops /\ Forall metered ops /\ Forall unpopped ops /\
    forward (so_step (ao_sep (rgo_agg o))) (flat_map (times o n) ops) /\
    y_run ne (y_new o true) ops = Ok (log, s) /\ Forall ev_typed log /\
    (forall id sn g, registered (y_reg s) n id sn g -> not_due ne (clk n) g) /\ y_do ne (YDestroy clk) s = Ok (log2, s2) /\
    (po_ncompact po = true -> po_sep po <> []) /\ flat_map pushed cs = map as_push (handed_over (log ++ log2)) /\ Forall no_pop cs /\
    names_weight (map as_push (handed_over (log ++ log2))) <= two64 /\ pk_run esc (pk_new po true) (cs ++ [PPushout]) = Some (rs, p) /\
    arrived = flat_map (arrives esc parse jp compact_text) (flat_map batches rs) /\ made = sent n [] log.
