(** Vocabulary of C97: a packer when memory runs out. *)
From Coq Require Import Ascii ZArith NArith List Bool Permutation.
From Verif Require Import Base ModelTypes ModelRegistry ModelJson ModelPacker SpecPacker ModelPackThrow ModelPackAlloc.
Import ListNotations.
Local Open Scope Z_scope.
Local Open Scope list_scope.

(** The records a call stores: none if push() fails, those in front of the one it fails at in multi_push(). *)
Definition z_pushed (c : zcall) : list push :=
  match c with
  | ZPush r false => [r]
  | ZPush r true => []
  | ZMulti l None => l
  | ZMulti l (Some i) => firstn i l
  | _ => []
  end.
(** What it hands to its caller or to the handler. *)
Definition z_batches (r : zres) : list mpush := match r with ZBatch (Some b) => [b] | ZOut _ bs | ZFailed bs _ => bs | _ => [] end.
Definition z_singles (r : zres) : list push := match r with ZPopped (Some (_, x)) => [x] | _ => [] end.
(** The records a failing call had taken out of the packer and destroyed. *)
Definition z_lost (r : zres) : list push := match r with ZFailed _ lost => lost | _ => [] end.

(** A call that may fail behind the loop of pushout(); the hollow copies such a failure leaves behind. *)
Definition behind (c : zcall) : bool := match c with ZPushout (Some (Moved _)) => true | _ => false end.
Definition z_copies (left : name -> name) (c : zcall) (r : zres) : list push :=
  if behind c then map (hollow left) (z_lost r) else [].
Fixpoint copies (left : name -> name) (cs : list zcall) (rs : list zres) : list push :=
  match cs, rs with c :: cs, r :: rs => z_copies left c r ++ copies left cs rs | _, _ => [] end.

(** A call in which no allocation fails, as it looks to the packer of C37-C44. *)
Definition z_sound (c : zcall) : Prop :=
  match c with ZPush _ true | ZMulti _ (Some _) | ZMultiPop (Some _) | ZPushout (Some _) => False | _ => True end.
Definition z_plain (c : zcall) : pcall :=
  match c with ZPush r _ => PPush r | ZMulti l _ => PMulti l | ZPop m => PPop m | ZMultiPop _ => PMultiPop | ZPushout _ => PPushout end.
Definition z_result (r : pres) : zres :=
  match r with RNothing => ZNothing | RPopped x => ZPopped x | RBatch b => ZBatch b | RPushout n bs => ZOut n bs end.
