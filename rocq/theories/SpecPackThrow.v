(** Vocabulary of C92: a packer whose handler throws. *)
From Coq Require Import Ascii ZArith NArith List Bool Permutation.
From Verif Require Import Base ModelTypes ModelRegistry ModelJson ModelPacker SpecPacker ModelPackThrow.
Import ListNotations.
Local Open Scope Z_scope.
Local Open Scope list_scope.

(** What a call stores, and what it hands to its caller or to the handler (also a batch on which the handler throws). *)
Definition y_pushed (c : ycall) : list push := match c with YPush r => [r] | YMulti l => l | _ => [] end.
Definition y_batches (r : yres) : list mpush := match r with YBatch (Some b) => [b] | YOut _ bs => bs | _ => [] end.
Definition y_singles (r : yres) : list push := match r with YPopped (Some (_, x)) => [x] | _ => [] end.

(** The batch on which the handler threw. *)
Definition y_refused (r : yres) : list mpush :=
  match r with YOut OThrewLoop bs | YOut OThrewTail bs => match rev bs with [] => [] | b :: _ => [b] end | _ => [] end.
(** The batches handed over otherwise: returned by multi_pop(), or given to a handler call that returned. *)
Definition y_accepted (r : yres) : list mpush :=
  match r with YOut OThrewLoop bs | YOut OThrewTail bs => removelast bs | _ => y_batches r end.
(** The hollow copies a failed call leaves behind: those of the records of the batch behind the loop. *)
Definition y_copies (left : name -> name) (jp : jparser) (r : yres) : list push :=
  match r with YOut OThrewTail bs => map (hollow left) (flat_map (received jp) (y_refused r)) | _ => [] end.

(** No call of the history failed in the batch behind the loop. *)
Definition no_tail (rs : list yres) : Prop := forall bs, ~ In (YOut OThrewTail bs) rs.

(** What a record costs in a batch of its own beyond the empty batch: the size under which it is stored and, with
    name_compact, four more than its length for every part of its name. *)
Definition cost (esc : name -> name) (o : popts) (r : push) : Z :=
  accounted esc o r +
  (if po_ncompact o
   then match compact (mk_mpush (po_sep o) [] [r]) with
        | Some (_, m) => fold_right (fun n s => zlen n + 4 + s) 0 (mp_legend m)
        | None => 0
        end
   else 0).
Definition fits (esc : name -> name) (o : popts) (r : push) : Prop :=
  zlen (mpush_text esc (po_jcompact o) mpush0) < po_json o /\
  zlen (mpush_text esc (po_jcompact o) mpush0) + cost esc o r <= po_json o.

(** A history as it looks to the packer if no handler throws. *)
Definition y_plain (c : ycall) : pcall :=
  match c with YPush r => PPush r | YMulti l => PMulti l | YPop m => PPop m | YMultiPop => PMultiPop | YPushout _ => PPushout end.
Definition y_result (r : pres) : yres :=
  match r with RNothing => YNothing | RPopped x => YPopped x | RBatch b => YBatch b | RPushout n bs => YOut (OReturned n) bs end.
(** A call whose handler does not throw. *)
Definition never (c : ycall) : Prop := match c with YPushout (Some _) => False | _ => True end.
