(** Critical sections on several shards: what it means that they take effect one after the other. *)
From Coq Require Import ZArith List Bool Arith Ascii.
From Verif Require Import Base ModelTypes ModelReducer SpecReducer ModelSeparator SpecSeparator ModelAggregator SpecAggregator ModelRegistry ModelMt ModelMulti SpecMulti ModelShards.
Import ListNotations.

Section Turn.
  Context {S C R : Type}.
  Variables (at_ : C -> nat) (alone : C -> S -> R * S).
  (** Sections run one after the other, each on its shard, with these results. *)
  Inductive in_turn : list S -> list (C * R) -> list S -> Prop :=
  | it_nil os : in_turn os [] os
  | it_cons os c r o o' t os' : nth_error os (at_ c) = Some o -> alone c o = (r, o') -> in_turn (set_nth (at_ c) o' os) t os' ->
      in_turn os ((c, r) :: t) os'.
  (** The part of a log that belongs to thread [i]. *)
  Definition by_thread (i : nat) (log : list (nat * (C * R))) : list (C * R) := map snd (filter (fun x => fst x =? i) log).
  Definition running (t : mthread S C R) : list C := match inside t with Some (c, _) => [c] | None => [] end.
  (** [log] explains the state [s] of threads with programs [ps]: it holds what each thread has done so far, in its order and with the results it
      got; these sections one after the other have these results; and they leave the shards as they are, except those in use. *)
  Definition explains (os0 : list S) (ps : list (list C)) (log : list (nat * (C * R))) (s : hstate S C R) : Prop :=
    length (h_threads s) = length ps /\
    (forall i t p, nth_error (h_threads s) i = Some t -> nth_error ps i = Some p ->
       map fst (by_thread i log) ++ running t ++ todo t = p /\ map snd (by_thread i log) = got t) /\
    (forall x, In x log -> fst x < length ps) /\
    exists os, in_turn os0 (map snd log) os /\
      forall j, (forall i t, nth_error (h_threads s) i = Some t -> ~ In j (map at_ (running t))) -> nth_error (h_objs s) j = nth_error os j.
End Turn.

(** ** One name *)
(** What a section means for name [n], and what its result says about it. *)
Definition sec_call (hash : name -> Z) (o : maopts) (n : name) (s : sec) : option mcop :=
  match s with
  | SPush e m d _ => if name_eqb n m then Some (KPush e d) else None
  | SDel m => if name_eqb n m then Some KDel else None
  | SPop f _ _ i => if (i =? shard_of hash o n)%nat then Some (KPop f) else None
  | SSize _ => None
  end.
Definition sec_view (n : name) (s : sec) (r : mout) : mcout :=
  match s, r with
  | SPush _ _ _ _, MAns b l => KAns b (of_name n l)
  | SDel _, MAns b _ => KBool b
  | _, r => KRecs (of_name n (mrecs r))
  end.
Definition sec_project (hash : name -> Z) (o : maopts) (n : name) (log : list (sec * mout)) : list (mcop * mcout) :=
  flat_map (fun x => match sec_call hash o n (fst x) with Some c => [(c, sec_view n (fst x) (snd x))] | None => [] end) log.
Definition sec_order_ok (s : sec) : Prop := match s with SPop _ _ ord _ => forall l, Permutation.Permutation (ord l) l | _ => True end.

(** The records pushed under [n] and the records handed out for [n], in the order of the log. *)
Definition sec_fed1 (n : name) (s : sec) : list rdata := match s with SPush _ m d _ => if name_eqb n m then [d] else [] | _ => [] end.
Definition sec_fed (n : name) (log : list (sec * mout)) : list rdata := flat_map (fun x => sec_fed1 n (fst x)) log.
Definition sec_given (n : name) (log : list (sec * mout)) : list adata := of_name n (flat_map (fun x => mrecs (snd x)) log).
(** Every section of a log was defined; its results. *)
Definition defined (log : list (nat * (sec * outcome mout))) (l : list (sec * mout)) : Prop := map snd log = map (fun x => (fst x, Ok (snd x))) l.

(** Orders in which the calls of two threads can be made, one call after the other. *)
Inductive interleaved {A} : list A -> list A -> list A -> Prop :=
| il_nil : interleaved [] [] []
| il_left x a b l : interleaved a b l -> interleaved (x :: a) b (x :: l)
| il_right x a b l : interleaved a b l -> interleaved a (x :: b) (x :: l).
