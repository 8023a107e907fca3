(** What a user can say about a multi_aggregator whose handlers call it. *)
From Coq Require Import ZArith List Bool Arith Ascii.
From Verif Require Import Base ModelTypes ModelReducer ModelSeparator SpecSeparator ModelAggregator SpecAggregator ModelRegistry ModelMulti SpecMulti ModelShards SpecShards
  ModelMultiReenter.
Import ListNotations.

Section Body.
  Context {St R G : Type}.
  (** A section run with a handler that only receives: its result, the records given, the shard. *)
  Fixpoint heval (p : hprog St R G) (s : St) : R * list G * St :=
    match p with
    | HRet r => (r, [], s)
    | HDo f => let (s', p') := f s in heval p' s'
    | HGive x k => let '(r, l, s') := heval k s in (r, x :: l, s')
    end.
End Body.

Section Events.
  Context {C R G O : Type}.
  (** The records given to handlers; the sections, in the order in which they end, with their results; the calls, with the results of their sections. *)
  Definition mr_given (evs : list (hev C R G O)) : list G := flat_map (fun e => match e with EvGiven _ x => [x] | _ => [] end) evs.
  Definition mr_secs (evs : list (hev C R G O)) : list (C * R) := flat_map (fun e => match e with EvSec c r => [(c, r)] | _ => [] end) evs.
  Definition mr_done (evs : list (hev C R G O)) : list (O * list R) := flat_map (fun e => match e with EvDone op rs => [(op, rs)] | _ => [] end) evs.
End Events.

Section Calls.
  Context {C O : Type}.
  Variables (at_ : C -> nat) (parts : O -> list C).
  (** All calls satisfy [P], also those the handlers make. *)
  Inductive hb_all (P : O -> Prop) : hbeh O -> Prop :=
  | HbAll cs : Forall (fun q => P (fst q) /\ Forall (hb_all P) (snd q)) cs -> hb_all P (HBeh cs).
  Definition hc_all (P : O -> Prop) (q : hcall O) : Prop := P (fst q) /\ Forall (hb_all P) (snd q).
  (** No call uses a shard in [held], nor a shard that a call around it is in. *)
  Inductive hb_apart : list nat -> hbeh O -> Prop :=
  | HbApart held cs :
      Forall (fun q => Forall (fun c => ~ In (at_ c) held /\ Forall (hb_apart (at_ c :: held)) (snd q)) (parts (fst q))) cs -> hb_apart held (HBeh cs).
  Definition hc_apart (held : list nat) (q : hcall O) : Prop :=
    Forall (fun c => ~ In (at_ c) held /\ Forall (hb_apart (at_ c :: held)) (snd q)) (parts (fst q)).
  (** The handlers of this call never call. *)
  Definition hc_quiet (q : hcall O) : Prop := Forall (fun b => b = HBeh []) (snd q).
End Calls.

Section Made.
  Context {C R G O : Type}.
  Variable parts : O -> list C.
  (** What may be seen of calls: the sections of each call come in their order, then the call returns with their results; whenever a section gives
      a record, the handler makes the calls it makes then, and nothing else happens before it has made them.
      [heard cs rs bs evs]: the sections [cs] of a call, with results [rs] and with handler [bs], look like [evs]. *)
  Inductive heard : list C -> list R -> list (hbeh O) -> list (hev C R G O) -> Prop :=
  | hd_end bs : heard [] [] bs []
  | hd_sec c r cs rs bs evs : heard cs rs bs evs -> heard (c :: cs) (r :: rs) bs (EvSec c r :: evs)
  | hd_given c x cs rs l bs hevs evs : made l hevs -> heard (c :: cs) rs bs evs -> heard (c :: cs) rs (HBeh l :: bs) (EvGiven c x :: hevs ++ evs)
  | hd_idle c x cs rs evs : heard (c :: cs) rs [] evs -> heard (c :: cs) rs [] (EvGiven c x :: evs)
  with made : list (hcall O) -> list (hev C R G O) -> Prop :=
  | md_end : made [] []
  | md_call op bs rs evs t evs' : heard (parts op) rs bs evs -> made t evs' -> made ((op, bs) :: t) (evs ++ EvDone op rs :: evs').
End Made.

(** The bodies do what the sections of ModelMulti do, however they are divided into statements and handler calls, as long as the handlers only receive. *)
Definition sections_of (ne : nat -> list Z -> list Z) (o : maopts) (body : sec -> mbody) : Prop :=
  forall c s, let '(r, l, s') := heval (body c) s in (r, s') = sec_run ne o c s /\ forall x, r = Ok x -> l = mrecs x.
(** Calls on a new multi_aggregator, and the sections of the program, all of them defined. *)
Definition mr_run (hash : name -> Z) (o : maopts) (body : sec -> mbody) (n : nat) (cs : list (hcall mop)) :=
  hr_calls (sec_at hash o) (secs (ma_hash o)) body n [] cs (repeat (Ok []) (ma_hash o)).
Definition all_defined (evs : list (hev sec (outcome mout) (name * adata) mop)) (l : list (sec * mout)) : Prop :=
  mr_secs evs = map (fun x => (fst x, Ok (snd x))) l.
