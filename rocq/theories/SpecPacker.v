(** Vocabulary of the packer properties (C37-C44). *)
From Coq Require Import Ascii ZArith NArith List Bool Permutation.
From Verif Require Import Base ModelTypes ModelRegistry ModelJson ModelPacker.
Import ListNotations.
Local Open Scope Z_scope.
Local Open Scope list_scope.

(** Contract of the wjson integer parser: it recognises a decimal number below 2^64 that is followed by the end or by a
    character that is not a digit, returns its value and stops behind it; it recognises a number only at a digit or '-';
    and it consumes something. *)
Definition is_digit (c : ascii) : bool :=
  let n := nat_of_ascii c in (48 <=? n)%nat && (n <=? 57)%nat.
Definition no_digit (s : name) : Prop := match s with [] => True | c :: _ => is_digit c = false end.
Record jparser_ok (jp : jparser) : Prop := {
  jp_number : forall n rest, (Z.of_N n < two64) -> no_digit rest ->
    jp_isnum jp (dec n ++ rest) = true /\ jp_int jp (dec n ++ rest) = (n, rest);
  jp_other : forall c rest, is_digit c = false -> c <> "-"%char -> jp_isnum jp (c :: rest) = false;
  jp_consumes : forall s, jp_isnum jp s = true -> (length (snd (jp_int jp s)) < length s)%nat }.

(** An instance: [0-9]+ (an optional minus sign negates modulo 2^64). *)
Fixpoint digits (acc : N) (s : name) : N * name :=
  match s with
  | [] => (acc, [])
  | c :: t => if is_digit c then digits (10 * acc + N.of_nat (nat_of_ascii c - 48))%N t else (acc, s)
  end.
Definition jp_std : jparser :=
  mk_jparser
    (fun s => match s with [] => false | c :: _ => is_digit c || (nat_of_ascii c =? 45)%nat end)
    (fun s => match s with
              | [] => (0%N, [])
              | c :: t => if is_digit c then digits 0 s
                          else let '(n, r) := digits 0 t in (Z.to_N (u64 (- Z.of_N n)), r)
              end).

(** Memory: the names and their parts can be counted by a size_t. *)
Definition names_weight (l : list push) : Z := fold_right (fun r s => zlen (pu_name r) + 1 + s) 0 l.

(** A history of the packer: calls and what they return or deliver. *)
Inductive pcall := PPush (r : push) | PMulti (l : list push) | PPop (maxsize : Z) | PMultiPop | PPushout.
Inductive pres := RNothing | RPopped (r : option (Z * push)) | RBatch (b : option mpush) | RPushout (n : nat) (bs : list mpush).
Definition pk_do (esc : name -> name) (c : pcall) (p : packer) : option (pres * packer) :=
  match c with
  | PPush r => match pk_push esc r p with None => None | Some p => Some (RNothing, p) end
  | PMulti l => match pk_pushes esc l p with None => None | Some p => Some (RNothing, p) end
  | PPop m => match pk_pop m p with None => Some (RPopped None, p) | Some (t, p) => Some (RPopped (Some (t_size t, t_rec t)), p) end
  | PMultiPop => match pk_multi_pop esc p with None => None | Some (b, p) => Some (RBatch b, p) end
  | PPushout => match pk_pushout esc p with None => None | Some (n, bs, p) => Some (RPushout n bs, p) end
  end.
Fixpoint pk_run (esc : name -> name) (p : packer) (cs : list pcall) : option (list pres * packer) :=
  match cs with
  | [] => Some ([], p)
  | c :: t => match pk_do esc c p with
              | None => None
              | Some (r, p) => match pk_run esc p t with None => None | Some (rs, p) => Some (r :: rs, p) end
              end
  end.

Definition pushed (c : pcall) : list push :=
  match c with PPush r => [r] | PMulti l => l | _ => [] end.
(** The batches and single records handed to the user by a call. *)
Definition batches (r : pres) : list mpush :=
  match r with RBatch (Some b) => [b] | RPushout _ bs => bs | _ => [] end.
Definition singles (r : pres) : list push :=
  match r with RPopped (Some (_, x)) => [x] | _ => [] end.
(** The records of a batch as its receiver sees them after recompact. *)
Definition received (jp : jparser) (b : mpush) : list push := mp_data (snd (recompact jp b)).
(** The records currently stored. *)
Definition stored (p : packer) : list push := map t_rec (pk_top p).

(** The size under which a record is stored: that of its JSON text, with the name's length replaced by the length of the
    name compacted alone if name_compact is set. *)
Definition accounted (esc : name -> name) (o : popts) (r : push) : Z :=
  zlen (push_text esc (po_jcompact o) r) +
  (if po_ncompact o
   then match compact (mk_mpush (po_sep o) [] [r]) with
        | Some (_, m) => fold_right (fun r s => zlen (pu_name r) + s) 0 (mp_data m) - zlen (pu_name r)
        | None => 0
        end
   else 0).

(** Well-formed and malformed compact names (C44): decimal indices into the legend separated by '~'. *)
Inductive index_prefix (n : N) : name -> Prop :=
| ip_nil : index_prefix n []
| ip_cons : forall k s, (k < n)%N -> index_prefix n s -> index_prefix n (dec k ++ "~"%char :: s).
Inductive malformed (n : N) : name -> Prop :=
| mf_range : forall pre k rest, index_prefix n pre -> (n <= k)%N -> Z.of_N k < two64 -> no_digit rest -> malformed n (pre ++ dec k ++ rest)
| mf_start : forall pre c rest, index_prefix n pre -> is_digit c = false -> c <> "-"%char -> malformed n (pre ++ c :: rest)
| mf_sep : forall pre k c rest, index_prefix n pre -> (k < n)%N -> is_digit c = false -> c <> "~"%char ->
    malformed n (pre ++ dec k ++ c :: rest).
Inductive well_formed (n : N) : name -> Prop :=
| wf_intro : forall pre k, index_prefix n pre -> (k < n)%N -> well_formed n (pre ++ dec k)
| wf_trailing : forall pre, index_prefix n pre -> well_formed n pre.
