(** What a user expects of a multi_aggregator: one map from names to aggregators. *)
From Coq Require Import ZArith List Bool Arith Ascii Permutation.
From Verif Require Import Base ModelTypes ModelReducer SpecReducer ModelSeparator SpecSeparator ModelAggregator SpecAggregator ModelRegistry ModelMulti.
Import ListNotations.
Local Open Scope Z_scope.

(** Public calls and their answers; the named records are those the handler received, in order. *)
Inductive mop :=
| MPush (e : penv) (n : name) (d : rdata) (h : bool)
| MMulti (ps : list (penv * (name * rdata))) (h : bool)
| MDel (n : name)
| MPushout (force h : bool) (ord : list name -> list name)
| MSize.
Inductive mout := MAns (b : bool) (l : list (name * adata)) | MRecs (l : list (name * adata)) | MSizes (count data_size : nat).

Section Run.
  Variable ne : nat -> list Z -> list Z.
  Variable hash : name -> Z.
  Definition ma_do (op : mop) (m : multi) : outcome (mout * multi) :=
    match op with
    | MPush e n d h => '(b, l, m1) <- ma_push ne hash e n d h m ;; Ok (MAns b l, m1)
    | MMulti ps h => '(b, l, m1) <- ma_multi_push ne hash ps h m ;; Ok (MAns b l, m1)
    | MDel n => '(b, m1) <- ma_del hash n m ;; Ok (MAns b [], m1)
    | MPushout f h ord => '(l, m1) <- ma_pushout ne f h ord m ;; Ok (MRecs l, m1)
    | MSize => Ok (MSizes (ma_size m) (ma_data_size m), m)
    end.
  Fixpoint ma_run (m : multi) (ops : list mop) : outcome (list mout * multi) :=
    match ops with
    | [] => Ok ([], m)
    | op :: t => '(o, m1) <- ma_do op m ;; '(os, m2) <- ma_run m1 t ;; Ok (o :: os, m2)
    end.
End Run.

(** A traversal visits every key once. *)
Definition order_ok (op : mop) : Prop := match op with MPushout _ _ ord => forall l, Permutation (ord l) l | _ => True end.

(** * The single map *)
Definition amap := name -> option agg.
Definition update (f : amap) (n : name) (x : option agg) (f' : amap) : Prop :=
  f' n = x /\ forall m, m <> n -> f' m = f m.
Definition no_perc (a : adata) : adata := mk_adata (ad_info a) (mk_perc 0 0 0 0 0) (ad_data a).

Section Single.
  Variable ne : nat -> list Z -> list Z.
  Variable o : aopts.
  (** push: on the aggregator of that name, or on a new one with the record's time; records are reported under that
      name, without percentiles (the violation noted in C36). *)
  Definition single_push (e : penv) (n : name) (d : rdata) (h : bool) (f : amap) (b : bool) (l : list (name * adata)) (f' : amap) : Prop :=
    exists g recs g1,
      match f n with Some g0 => g = g0 | None => agg_new o (pe_clock e) (pe_rnd e) (ri_ts (rd_info d)) = Ok g end /\
      g_call ne (GoPush (SmRed d) true (pe_c1 e) (pe_c2 e)) g = Ok (mk_sout (Some b) recs None, g1) /\
      l = map (fun a => (n, no_perc a)) recs /\ (h = false -> l = []) /\ update f n (Some g1) f'.
  Inductive single_pushes (h : bool) : list (penv * (name * rdata)) -> amap -> list (name * adata) -> amap -> Prop :=
  | sp_nil f f' : (forall n, f' n = f n) -> single_pushes h [] f [] f'
  | sp_cons e n d t f b l f1 l2 f2 : single_push e n d h f b l f1 -> single_pushes h t f1 l2 f2 ->
      single_pushes h ((e, (n, d)) :: t) f (l ++ l2) f2.
  Definition pop_call (force : bool) : gop := if force then GoForcePop else GoPop.
  Definition single (op : mop) (f : amap) (out : mout) (f' : amap) : Prop :=
    match op, out with
    | MPush e n d h, MAns b l => single_push e n d h f b l f'
    | MMulti ps h, MAns b l => b = true /\ single_pushes h ps f l f'
    | MDel n, MAns b l => (b = true <-> f n <> None) /\ l = [] /\ update f n None f'
    | MPushout force h _, MRecs l =>
        NoDup (map fst l) /\ (h = false -> l = []) /\
        (forall n a, In (n, a) l <-> exists g g', f n = Some g /\ g_call ne (pop_call force) g = Ok (mk_sout None [] (Some a), g')) /\
        (forall n, match f n with
                   | None => f' n = None
                   | Some g => exists a g', g_call ne (pop_call force) g = Ok (mk_sout None [] a, g') /\ f' n = Some g'
                   end)
    | MSize, MSizes k ds =>
        (exists l, NoDup (map fst l) /\ (forall n g, In (n, g) l <-> f n = Some g) /\ k = length l /\
                   ds = list_sum (map (fun p => g_data_size (snd p)) l)) /\
        forall n, f' n = f n
    | _, _ => False
    end.
  Inductive single_run : amap -> list mop -> list mout -> amap -> Prop :=
  | sr_nil f f' : (forall n, f' n = f n) -> single_run f [] [] f'
  | sr_cons op t f out f1 outs f2 : single op f out f1 -> single_run f1 t outs f2 -> single_run f (op :: t) (out :: outs) f2.
End Single.

(** * One name *)
Inductive mcop := KPush (e : penv) (d : rdata) | KMulti (l : list (penv * rdata)) | KDel | KPop (force : bool).
Inductive mcout := KAns (b : bool) (l : list adata) | KRecs (l : list adata) | KBool (b : bool).
Section Cell.
  Variable ne : nat -> list Z -> list Z.
  Variable o : aopts.
  Definition kpush (e : penv) (d : rdata) (c : option agg) : outcome (bool * list adata * agg) :=
    g <- match c with Some g => Ok g | None => agg_new o (pe_clock e) (pe_rnd e) (ri_ts (rd_info d)) end ;;
    '(r, g1) <- g_call ne (GoPush (SmRed d) true (pe_c1 e) (pe_c2 e)) g ;;
    Ok (match out_bool r with Some b => b | None => false end, map no_perc (out_handler r), g1).
  Fixpoint kpushes (ps : list (penv * rdata)) (c : option agg) : outcome (list adata * option agg) :=
    match ps with
    | [] => Ok ([], c)
    | (e, d) :: t => '(_, l, g) <- kpush e d c ;; '(l2, c2) <- kpushes t (Some g) ;; Ok (l ++ l2, c2)
    end.
  Definition kdo (op : mcop) (c : option agg) : outcome (mcout * option agg) :=
    match op with
    | KPush e d => '(b, l, g) <- kpush e d c ;; Ok (KAns b l, Some g)
    | KMulti ps => '(l, c1) <- kpushes ps c ;; Ok (KRecs l, c1)
    | KDel => Ok (KBool (match c with Some _ => true | None => false end), None)
    | KPop force =>
        match c with
        | None => Ok (KRecs [], None)
        | Some g => '(r, g1) <- g_call ne (pop_call force) g ;;
                    Ok (KRecs (match out_ptr r with Some a => [a] | None => [] end), Some g1)
        end
    end.
  Fixpoint krun (c : option agg) (ops : list mcop) : outcome (list mcout * option agg) :=
    match ops with
    | [] => Ok ([], c)
    | op :: t => '(r, c1) <- kdo op c ;; '(rs, c2) <- krun c1 t ;; Ok (r :: rs, c2)
    end.
End Cell.
Definition of_name {A} (n : name) (l : list (name * A)) : list A :=
  map snd (filter (fun p => name_eqb n (fst p)) l).
(** The calls of a history addressed to [n], and what they say about [n]. *)
Definition kcall (n : name) (op : mop) : option mcop :=
  match op with
  | MPush e m d _ => if name_eqb n m then Some (KPush e d) else None
  | MMulti ps _ => Some (KMulti (of_name n (map (fun p => (fst (snd p), (fst p, snd (snd p)))) ps)))
  | MDel m => if name_eqb n m then Some KDel else None
  | MPushout f _ _ => Some (KPop f)
  | MSize => None
  end.
Definition kview (n : name) (op : mop) (out : mout) : mcout :=
  match op, out with
  | MPush _ _ _ _, MAns b l => KAns b (of_name n l)
  | MDel _, MAns b _ => KBool b
  | _, MAns _ l | _, MRecs l => KRecs (of_name n l)
  | _, MSizes _ _ => KRecs []
  end.
Fixpoint kproject (n : name) (ops : list mop) (outs : list mout) : list (mcop * mcout) :=
  match ops, outs with
  | op :: t, out :: u => match kcall n op with Some c => [(c, kview n op out)] | None => [] end ++ kproject n t u
  | _, _ => []
  end.
(** The records delivered under [n]. *)
Definition mrecs (out : mout) : list (name * adata) := match out with MAns _ l | MRecs l => l | MSizes _ _ => [] end.

(** * The history of one aggregator *)
(** The calls a name's aggregator receives. *)
Definition hist1 (n : name) (op : mop) : list gop :=
  match op with
  | MPush e m d _ => if name_eqb n m then [GoPush (SmRed d) true (pe_c1 e) (pe_c2 e)] else []
  | MMulti ps _ => flat_map (fun p => if name_eqb n (fst (snd p)) then [GoPush (SmRed (snd (snd p))) true (pe_c1 (fst p)) (pe_c2 (fst p))] else []) ps
  | MPushout f _ _ => [pop_call f]
  | _ => []
  end.
Definition hist (n : name) (ops : list mop) : list gop := flat_map (hist1 n) ops.
(** What its answers look like to the handler: pushes report without percentiles. *)
Definition reports (r : sout) : list adata :=
  map no_perc (out_handler r) ++ match out_ptr r with Some a => [a] | None => [] end.

(** Inputs for which the library's arithmetic is defined (see C18): every pushed record typed and safe, every time
    reading within range, handlers not null. *)
Definition push_safe (o : aopts) (e : penv) (d : rdata) : Prop :=
  let x := GoPush (SmRed d) true (pe_c1 e) (pe_c2 e) in
  gop_typed x /\ gop_safe (so_step (ao_sep o)) x /\
  time_ok (so_step (ao_sep o)) (ri_ts (rd_info d)) /\ time_ok (so_step (ao_sep o)) (pe_clock e) /\
  (so_soiled (ao_sep o) = 0 \/ (i64_min + 2 ^ 62 <= ri_ts (rd_info d) /\ i64_min + 2 ^ 62 <= pe_clock e /\ 0 <= pe_rnd e < 2 ^ 31 /\ i64 (so_soiled (ao_sep o)))).
Definition mop_safe (o : aopts) (op : mop) : Prop :=
  match op with
  | MPush e n d h => h = true /\ push_safe o e d
  | MMulti ps h => h = true /\ Forall (fun p => push_safe o (fst p) (snd (snd p))) ps
  | MPushout _ h _ => h = true
  | _ => True
  end.
(** The values pushed. *)
Definition mop_values (op : mop) : list Z :=
  match op with
  | MPush _ _ d _ => rd_data d
  | MMulti ps _ => flat_map (fun p => rd_data (snd (snd p))) ps
  | _ => []
  end.

(** The aggregator kept for a name. *)
Definition shard_of (hash : name -> Z) (o : maopts) (n : name) : nat := Z.to_nat (u64 (hash n) mod Z.of_nat (ma_hash o)).
Definition ma_get (hash : name -> Z) (o : maopts) (m : multi) (n : name) : option agg :=
  match nth_error (mu_list m) (shard_of hash o n) with Some b => bm_find n b | None => None end.
