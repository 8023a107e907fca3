(** wrtstat/multi_packer/basic_packer.cpp when the handler throws.  push, multi_push, pop_by_json_size and multi_pop
    call no handler and stay as in ModelPacker; pushout is modelled again with the turn at which the handler throws. *)
From Coq Require Import Ascii ZArith NArith List Bool.
From Verif Require Import Base ModelTypes ModelRegistry ModelJson ModelPacker.
Import ListNotations.
Local Open Scope Z_scope.
Local Open Scope list_scope.

Section Throw.
  Variable esc : name -> name.
  (** What a string holds that has been moved from.  The language leaves it open ("valid but unspecified"); with libstdc++
      it is the empty string. *)
  Variable left : name -> name.

  (** A request::push that has been moved from, api/push.hpp:16-20 and aggregator/api/aggregated_data.hpp:10-16: the
      implicit move constructor takes the vector [data] (a vector that was moved from is empty) and the string [name] and
      copies the numbers. *)
  Definition hollow (r : push) : push :=
    mk_push (left (pu_name r)) (mk_adata (ad_info (pu_data r)) (ad_perc (pu_data r)) []).

  (** The loop of basic_packer::pushout, basic_packer.cpp:30-34.  [k] is the number of handler calls that return before one
      throws ([None]: none throws).  The result: the batches handed to the handler, whether the last of these calls threw,
      and what is left of [k]. *)
  Definition turn (k : option nat) : option nat := match k with Some (S j) => Some j | _ => k end.
  Fixpoint pushout_loop_x (fuel : nat) (k : option nat) (p : packer) : option (list mpush * bool * option nat * packer) :=
    match fuel with
    | O => None
    | S fuel =>
        match pk_multi_pop esc p with
        | None => None
        | Some (None, p1) => Some ([], false, k, p1)
        | Some (Some m, p1) =>
            match k with
            | Some O => Some ([m], true, k, p1)
            | _ => match pushout_loop_x fuel (turn k) p1 with
                   | None => None
                   | Some (ms, b, k, p2) => Some (m :: ms, b, k, p2)
                   end
            end
        end
    end.

  (** How a call of pushout() ends: it returns the count, or leaves with the handler's exception, thrown by the handler
      call in the loop (line 32) or by the one behind it (line 44). *)
  Inductive pout := OReturned (n : nat) | OThrewLoop | OThrewTail.

  (** basic_packer::pushout, basic_packer.cpp:24-50.  Behind the loop the stored records are moved, one by one, into the
      batch (line 41); if the handler throws on it, line 47 is not reached and _top keeps the records moved from with the
      sizes and legends they had. *)
  Definition pk_pushout_x (k : option nat) (p : packer) : option (pout * list mpush * packer) :=
    if pk_handler p then
      match pushout_loop_x (S (length (pk_top p))) k p with
      | None => None
      | Some (ms, true, _, p1) => Some (OThrewLoop, ms, p1)
      | Some (ms, false, k, p1) =>
          match pk_top p1 with
          | [] => Some (OReturned (length ms), ms, p1)
          | l => match compact (mk_mpush sep0 [] (map t_rec l)) with
                 | None => None
                 | Some (_, m) =>
                     match k with
                     | Some O => Some (OThrewTail, ms ++ [m],
                                       pk_set (map (fun t => mk_top (t_size t) (hollow (t_rec t)) (t_legend t)) l) p1)
                     | _ => Some (OReturned (length ms), ms ++ [m], pk_set [] p1)
                     end
                 end
          end
      end
    else Some (OReturned O, [], p).

  (** Calls of the packer; a call of pushout() comes with the number of handler calls that return before one throws. *)
  Inductive ycall := YPush (r : push) | YMulti (l : list push) | YPop (maxsize : Z) | YMultiPop | YPushout (k : option nat).
  Inductive yres := YNothing | YPopped (r : option (Z * push)) | YBatch (b : option mpush) | YOut (o : pout) (bs : list mpush).
  Definition pk_do_x (c : ycall) (p : packer) : option (yres * packer) :=
    match c with
    | YPush r => match pk_push esc r p with None => None | Some p => Some (YNothing, p) end
    | YMulti l => match pk_pushes esc l p with None => None | Some p => Some (YNothing, p) end
    | YPop m => match pk_pop m p with None => Some (YPopped None, p) | Some (t, p) => Some (YPopped (Some (t_size t, t_rec t)), p) end
    | YMultiPop => match pk_multi_pop esc p with None => None | Some (b, p) => Some (YBatch b, p) end
    | YPushout k => match pk_pushout_x k p with None => None | Some (o, bs, p) => Some (YOut o bs, p) end
    end.
  Fixpoint pk_run_x (p : packer) (cs : list ycall) : option (list yres * packer) :=
    match cs with
    | [] => Some ([], p)
    | c :: t => match pk_do_x c p with
                | None => None
                | Some (r, p) => match pk_run_x p t with None => None | Some (rs, p) => Some (r :: rs, p) end
                end
    end.
End Throw.
