(** wrtstat/multi_packer/basic_packer.cpp when memory runs out: what is left of a packer when an allocation inside a call throws
    std::bad_alloc.  No function of the class catches anything; the handler is taken not to throw (ModelPackThrow).
    pop_by_json_size, clear, empty, size, max_val and min_val allocate nothing (they move and erase). *)
From Coq Require Import Ascii ZArith NArith List Bool.
From Verif Require Import Base ModelTypes ModelRegistry ModelJson ModelPacker ModelPackThrow.
Import ListNotations.
Local Open Scope Z_scope.
Local Open Scope list_scope.

(** The allocations of multi_pop, basic_packer.cpp:253-325.  [FStart]: make_unique, 258.  [FTaken i]: those between taking the [i]-th
    record (from 0) out of _top, 272, and having it in the batch, 281, or back in _top, 287: legend_set.insert, 276, the growth of
    res->data, 281, everything in push, 287.  [FEnd]: the copy of the separator, 319, and compact, 322.  Simplified: these failures
    may happen in any call that gets there, also if the vector has room or the separator fits into the string itself. *)
Inductive popfault := FStart | FTaken (i : nat) | FEnd.

(** How multi_pop ends: it returns, or bad_alloc leaves it; [lost]: the records destroyed with [res] and [p]. *)
Inductive mend := MRet (b : option mpush) | MThrew (lost : list push).

(** The allocations of pushout, basic_packer.cpp:24-50.  [InTurn k f]: the allocation [f] of its [k]-th call (from 0) of multi_pop, 30.
    [Moved j]: those behind the loop when [j] records have been moved into the batch: make_unique, 38, and the growth of mp->data, 41,
    or compact, 43, if all are moved.  shrink_to_fit, 48, on an empty vector allocates nothing. *)
Inductive outfault := InTurn (k : nat) (f : popfault) | Moved (j : nat).
Inductive zend := ZRet (n : nat) | ZThrew (lost : list push).

Section Alloc.
  Variable esc : name -> name.
  Variable left : name -> name.

  (** The loop of multi_pop, basic_packer.cpp:268-315, left when the [i]-th record has been taken out.  [None]: it ends before that. *)
  Fixpoint pop_loop_f (fuel i : nat) (jl pl dl : Z) (seen : list name) (res : list push) (p : packer) : option (list push * packer) :=
    match fuel with
    | O => None
    | S fuel =>
        if jl <=? 0 then None
        else match pk_pop jl p with
             | None => None
             | Some (t, p1) =>
                 match i with
                 | O => Some (res ++ [t_rec t], p1)
                 | S i =>
                     let '(cur, seen) := charge (t_legend t) seen (t_size t) in
                     if cur <=? jl then
                       let res := res ++ [t_rec t] in
                       let jl := jl - cur in
                       let jl := if 0 <? jl then jl - (if po_json (pk_opt p) =? 0 then 0 else 1) else jl in
                       let pl := if po_push (pk_opt p) =? 0 then pl else pl - 1 in
                       if negb (po_push (pk_opt p) =? 0) && (pl =? 0) then None
                       else let moved_size := 0 in
                            let dl' := if po_data (pk_opt p) =? 0 then dl else dl - moved_size in
                            if negb (po_data (pk_opt p) =? 0) && ((dl <? moved_size) || (dl' =? 0)) then None
                            else pop_loop_f fuel i jl pl dl' seen res p1
                     else None
                 end
             end
    end.

  (** A call none of whose allocations fails. *)
  Definition plain_pop (p : packer) : option (mend * packer) :=
    match pk_multi_pop esc p with None => None | Some (b, p1) => Some (MRet b, p1) end.
  (** basic_packer::multi_pop, basic_packer.cpp:253-325, with a failing allocation; if the call does not get there it is an ordinary one *)
  Definition pk_multi_pop_f (f : popfault) (p : packer) : option (mend * packer) :=
    match pk_top p with
    | [] => plain_pop p
    | _ =>
        let o := pk_opt p in
        let empty_size := mpush_size esc (po_jcompact o) mpush0 in
        match f with
        | FStart => Some (MThrew [], p)
        | FTaken i =>
            if po_json o <? empty_size then plain_pop p
            else match pop_loop_f (S (length (pk_top p))) i (po_json o - empty_size) (po_push o) (po_data o) [] [] p with
                 | Some (lost, p1) => Some (MThrew lost, p1)
                 | None => plain_pop p
                 end
        | FEnd =>
            if po_json o <? empty_size then plain_pop p
            else match pop_loop esc (S (length (pk_top p))) (po_json o - empty_size) (po_push o) (po_data o) [] [] p with
                 | None => None
                 | Some ([], p1) => plain_pop p
                 | Some (res, p1) => Some (MThrew res, p1)
                 end
        end
    end.

  (** The loop of pushout, basic_packer.cpp:30-34: the batches handed over, and what the failing call of multi_pop lost.  The outer [None]
      is a loop that does not end, the inner one a loop that does not get to the failing allocation. *)
  Fixpoint pushout_loop_f (k : nat) (f : popfault) (p : packer) : option (option (list mpush * list push * packer)) :=
    match k with
    | O => match pk_multi_pop_f f p with
           | None => None
           | Some (MThrew lost, p1) => Some (Some ([], lost, p1))
           | Some (MRet _, _) => Some None
           end
    | S k => match pk_multi_pop esc p with
             | None => None
             | Some (None, _) => Some None
             | Some (Some m, p1) =>
                 match pushout_loop_f k f p1 with
                 | None => None
                 | Some None => Some None
                 | Some (Some (ms, lost, p2)) => Some (Some (m :: ms, lost, p2))
                 end
             end
    end.

  Definition plain_out (p : packer) : option (zend * list mpush * packer) :=
    match pk_pushout esc p with None => None | Some (n, ms, p1) => Some (ZRet n, ms, p1) end.
  (** basic_packer::pushout, basic_packer.cpp:24-50, with a failing allocation.  Behind the loop the records moved so far are destroyed
      with the batch; what they leave behind stays in _top (ModelPackThrow.hollow), in front of those not moved yet. *)
  Definition pk_pushout_f (f : outfault) (p : packer) : option (zend * list mpush * packer) :=
    if pk_handler p then
      match f with
      | InTurn k f =>
          match pushout_loop_f k f p with
          | None => None
          | Some None => plain_out p
          | Some (Some (ms, lost, p1)) => Some (ZThrew lost, ms, p1)
          end
      | Moved j =>
          match pushout_loop esc (S (length (pk_top p))) p with
          | None => None
          | Some (ms, p1) =>
              match pk_top p1 with
              | [] => plain_out p
              | l => if (j <=? length l)%nat
                     then Some (ZThrew (map t_rec (firstn j l)), ms,
                            pk_set (map (fun t => mk_top (t_size t) (hollow left (t_rec t)) (t_legend t)) (firstn j l) ++ skipn j l) p1)
                     else plain_out p
              end
          end
      end
    else plain_out p.

  (** Calls of the packer with the allocation that fails.  push, basic_packer.cpp:52-81: whichever allocation fails, _top.insert has not
      changed _top (it allocates before it moves anything), and the record goes with the pointer it was passed in.  multi_push, 83-89,
      fails at the [i]-th record (from 0). *)
  Inductive zcall := ZPush (r : push) (fails : bool) | ZMulti (l : list push) (f : option nat) | ZPop (maxsize : Z)
    | ZMultiPop (f : option popfault) | ZPushout (f : option outfault).
  (** What a call does: [ZFailed bs lost]: bad_alloc leaves it after the batches [bs] have been handed over *)
  Inductive zres := ZNothing | ZPopped (r : option (Z * push)) | ZBatch (b : option mpush) | ZOut (n : nat) (bs : list mpush)
    | ZFailed (bs : list mpush) (lost : list push).
  Definition pk_do_f (c : zcall) (p : packer) : option (zres * packer) :=
    match c with
    | ZPush r true => Some (ZFailed [] [], p)
    | ZPush r false => match pk_push esc r p with None => None | Some p => Some (ZNothing, p) end
    | ZMulti l (Some i) =>
        match pk_pushes esc (firstn i l) p with
        | None => None
        | Some p => Some (if (i <? length l)%nat then ZFailed [] [] else ZNothing, p)
        end
    | ZMulti l None => match pk_pushes esc l p with None => None | Some p => Some (ZNothing, p) end
    | ZPop m => match pk_pop m p with None => Some (ZPopped None, p) | Some (t, p) => Some (ZPopped (Some (t_size t, t_rec t)), p) end
    | ZMultiPop f =>
        match (match f with None => plain_pop p | Some f => pk_multi_pop_f f p end) with
        | None => None
        | Some (MRet b, p) => Some (ZBatch b, p)
        | Some (MThrew lost, p) => Some (ZFailed [] lost, p)
        end
    | ZPushout f =>
        match (match f with None => plain_out p | Some f => pk_pushout_f f p end) with
        | None => None
        | Some (ZRet n, bs, p) => Some (ZOut n bs, p)
        | Some (ZThrew lost, bs, p) => Some (ZFailed bs lost, p)
        end
    end.
  Fixpoint pk_run_f (p : packer) (cs : list zcall) : option (list zres * packer) :=
    match cs with
    | [] => Some ([], p)
    | c :: t => match pk_do_f c p with
                | None => None
                | Some (r, p) => match pk_run_f p t with None => None | Some (rs, p) => Some (r :: rs, p) end
                end
    end.
End Alloc.
