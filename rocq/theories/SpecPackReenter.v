(** Vocabulary of C103: a packer whose handler uses it. *)
From Coq Require Import Ascii ZArith NArith List Bool Permutation.
From Verif Require Import Base ModelTypes ModelRegistry ModelJson ModelPacker SpecPacker ModelPackThrow SpecPackThrow ModelPackReenter.
Import ListNotations.
Local Open Scope Z_scope.
Local Open Scope list_scope.

(** What a call stores. *)
Definition n_pushed (c : ncall) : list push := match c with NPush r => [r] | NMulti l => l | _ => [] end.
(** What the calls made in a run stored, whoever made them. *)
Definition ev_pushed (e : nev) : list push := match e with NDone c _ => n_pushed c | _ => [] end.
(** The batches the handler was given. *)
Definition ev_given (e : nev) : list mpush := match e with NGiven _ m => [m] | _ => [] end.
(** The batches and the single records returned by multi_pop() and pop_by_json_size(). *)
Definition ev_batches (e : nev) : list mpush := match e with NDone _ (NBatch (Some m)) => [m] | _ => [] end.
Definition ev_singles (e : nev) : list push := match e with NDone _ (NPopped (Some (_, r))) => [r] | _ => [] end.
(** What clear() destroyed, and what the end of pushout() destroyed. *)
Definition ev_cleared (e : nev) : list push := match e with NCleared l => l | _ => [] end.
Definition ev_wiped (e : nev) : list push := match e with NWiped l => l | _ => [] end.
(** The copies without name and values that stay in the packer while the handler has the batch given behind the loop. *)
Definition ev_copies (left : name -> name) (jp : jparser) (e : nev) : list push :=
  match e with NGiven true m => map (hollow left) (received jp m) | _ => [] end.
(** The number of batches given behind the loop. *)
Definition behinds (evs : list nev) : nat := length (filter (fun e => match e with NGiven true _ => true | _ => false end) evs).

(** The handler makes no call when it is given a batch behind the loop: the next thing that happens is the end of that pushout(). *)
Fixpoint silent_behind (evs : list nev) : Prop :=
  match evs with
  | [] => True
  | NGiven true _ :: t => match t with NWiped _ :: _ => silent_behind t | _ => False end
  | _ :: t => silent_behind t
  end.
