(** A multi_aggregator whose handlers call it (wrtstat/multi_aggregator/multi_aggregator.cpp).  Every handler runs inside std::lock_guard of the
    shard its record comes from (multi_aggregator.cpp:40-41, 49-50, 76-77, 87-88).  A handler that uses the same shard locks a std::mutex its own
    thread holds: undefined by the standard, a deadlock in practice.  A handler that uses other shards only does so in the middle of the call that
    gave it the record.  ModelMulti, ModelShards: handlers that leave the multi_aggregator alone.  One thread. *)
From Coq Require Import ZArith List Bool Arith Ascii.
From Verif Require Import Base ModelTypes ModelReducer ModelSeparator SpecSeparator ModelAggregator SpecAggregator ModelRegistry ModelMulti SpecMulti ModelShards.
Import ListNotations.

(** How a program ends: it is over; it locks a mutex it holds; it uses a shard that does not exist; the bound on the recursion was too small. *)
Inductive hres (A : Type) := HEnd (a : A) | HSelf | HNone | HMore.
Arguments HEnd {A} a.
Arguments HSelf {A}.
Arguments HNone {A}.
Arguments HMore {A}.
Definition hbind {A B} (x : hres A) (f : A -> hres B) : hres B :=
  match x with HEnd a => f a | HSelf => HSelf | HNone => HNone | HMore => HMore end.
Declare Scope hres_scope.
Notation "' p <~ e1 ;; e2" := (hbind e1 (fun p => e2)) (at level 61, p pattern, e1 at next level, right associativity) : hres_scope.
Local Open Scope hres_scope.

(** The body of a critical section: steps on the shard, and calls of the handler, each with a record. *)
Inductive hprog (St R G : Type) := HRet (r : R) | HDo (f : St -> St * hprog St R G) | HGive (x : G) (k : hprog St R G).
Arguments HRet {St R G} r.
Arguments HDo {St R G} f.
Arguments HGive {St R G} x k.
(** What a handler does when it is given a record: the calls it makes, each with what the handler of that call does the first time, the second time
    it is given a record, and so on; when the list is used up it does nothing. *)
Inductive hbeh (O : Type) := HBeh (calls : list (O * list (hbeh O))).
Arguments HBeh {O} calls.
Definition hcall (O : Type) := (O * list (hbeh O))%type.
(** What happens: the handler is given a record by a section; a section ends; a call returns. *)
Inductive hev (C R G O : Type) := EvGiven (c : C) (x : G) | EvSec (c : C) (r : R) | EvDone (op : O) (rs : list R).
Arguments EvGiven {C R G O} c x.
Arguments EvSec {C R G O} c r.
Arguments EvDone {C R G O} op rs.

Section Machine.
  Context {St C R G O : Type}.
  Variables (at_ : C -> nat) (parts : O -> list C) (body : C -> hprog St R G).
  (** [held]: the shards whose mutexes this thread holds.  [n] bounds the recursion. *)
  (** The rest [p] of section [c]. *)
  Fixpoint hr_prog (n : nat) (held : list nat) (c : C) (bs : list (hbeh O)) (p : hprog St R G) (os : list St) {struct n} :
      hres (R * list (hbeh O) * list (hev C R G O) * list St) :=
    match n with
    | 0 => HMore
    | S n' =>
        match p with
        | HRet r => HEnd (r, bs, [], os)
        | HDo f =>
            match nth_error os (at_ c) with
            | None => HNone
            | Some s => let (s', p') := f s in hr_prog n' held c bs p' (set_nth (at_ c) s' os)
            end
        | HGive x k =>
            '(evs, os1) <~ hr_calls n' held (match bs with HBeh cs :: _ => cs | [] => [] end) os ;;
            '(r, bs', evs', os2) <~ hr_prog n' held c (tl bs) k os1 ;;
            HEnd (r, bs', EvGiven c x :: evs ++ evs', os2)
        end
    end
  (** The sections of one call, one after the other: std::lock_guard, multi_aggregator.cpp:40, 49, 65, 76, 87, 99 *)
  with hr_secs (n : nat) (held : list nat) (bs : list (hbeh O)) (cs : list C) (os : list St) {struct n} :
      hres (list R * list (hev C R G O) * list St) :=
    match n with
    | 0 => HMore
    | S n' =>
        match cs with
        | [] => HEnd ([], [], os)
        | c :: t =>
            if existsb (Nat.eqb (at_ c)) held then HSelf
            else match nth_error os (at_ c) with
                 | None => HNone
                 | Some _ =>
                     '(r, bs', evs, os1) <~ hr_prog n' (at_ c :: held) c bs (body c) os ;;
                     '(rs, evs', os2) <~ hr_secs n' held bs' t os1 ;;
                     HEnd (r :: rs, evs ++ EvSec c r :: evs', os2)
                 end
        end
    end
  (** Calls one after the other. *)
  with hr_calls (n : nat) (held : list nat) (cs : list (hcall O)) (os : list St) {struct n} : hres (list (hev C R G O) * list St) :=
    match n with
    | 0 => HMore
    | S n' =>
        match cs with
        | [] => HEnd ([], os)
        | (op, bs) :: t =>
            '(rs, evs, os1) <~ hr_secs n' held bs (parts op) os ;;
            '(evs', os2) <~ hr_calls n' held t os1 ;;
            HEnd (evs ++ EvDone op rs :: evs', os2)
        end
    end.
End Machine.

(** The sections of a multi_aggregator, statement by statement, with the handler called where the code calls it. *)
Section Bodies.
  Variable ne : nat -> list Z -> list Z.
  Variable o : maopts.
  Definition mbody := hprog (outcome bmulti) (outcome mout) (name * adata).
  (** A statement on a shard that may be undefined already. *)
  Definition on_shard {A} (f : bmulti -> outcome (A * bmulti)) (k : A -> mbody) : mbody :=
    HDo (fun b => match b with
                  | Ok m => match f m with Ok (a, m1) => (Ok m1, k a) | Ub => (Ub, HRet Ub) | Exn => (Exn, HRet Exn) end
                  | Ub => (Ub, HRet Ub)
                  | Exn => (Exn, HRet Exn)
                  end).
  Fixpoint give_all (l : list (name * adata)) (k : mbody) : mbody := match l with [] => k | x :: t => HGive x (give_all t k) end.
  (** The loop of basic_multi_aggregator::pushout, basic_multi_aggregator.cpp:59-68, and force_pushout, 82-91, over the keys in the order in which the
      map is traversed (while the shard is locked the map does not change otherwise) *)
  Fixpoint pop_body (force h : bool) (ks : list name) (acc : list (name * adata)) : mbody :=
    match ks with
    | [] => HRet (Ok (MRecs acc))
    | n :: t =>
        on_shard (fun m => match bm_find n m with
                           | None => Ok (None, m)
                           | Some g =>
                               '(a, g1) <- (if force then g_force_pop ne g else Ok (g_pop g)) ;;
                               match a, h with Some _, false => Exn | _, _ => Ok (a, bm_set n g1 m) end
                           end)
                 (fun a => match a with Some x => HGive (n, x) (pop_body force h t (acc ++ [(n, x)])) | None => pop_body force h t acc end)
    end.
  (** push (basic_multi_aggregator.cpp:18-40), del (42-49), size (71-78).  A push is one statement followed by its handler calls; the
      theorems hold for every other division, in particular with handler calls between the statements of the aggregator's push. *)
  Definition sec_body (c : sec) : mbody :=
    match c with
    | SPush e n d h => on_shard (fun m => '(r, l, m1) <- bm_push ne (ma_agg o) e n d h m ;; Ok ((r, l), m1))
                                (fun a => give_all (snd a) (HRet (Ok (MAns (fst a) (snd a)))))
    | SDel n => on_shard (fun m => Ok (bm_del n m)) (fun r => HRet (Ok (MAns r [])))
    | SPop f h ord _ => on_shard (fun m => Ok (ord (map fst m), m)) (fun ks => pop_body f h ks [])
    | SSize _ => on_shard (fun m => Ok ((bm_size m, bm_data_size m), m)) (fun x => HRet (Ok (MSizes (fst x) (snd x))))
    end.
End Bodies.
