(** wrtstat/multi_packer/basic_packer.cpp when the handler uses the packer it is called by.  The other models of the packer assume that the
    handler only receives (ModelPacker) or throws (ModelPackThrow); here every call of the handler may make any calls on the same packer,
    pushout() included.  push, multi_push, pop_by_json_size, multi_pop and clear call no handler and stay as in ModelPacker. *)
From Coq Require Import Ascii ZArith NArith List Bool.
From Verif Require Import Base ModelTypes ModelRegistry ModelJson ModelPacker ModelPackThrow.
Import ListNotations.
Local Open Scope list_scope.

(** The calls of the packer and what they return (basic_packer.hpp:34-58) *)
Inductive ncall := NPush (r : push) | NMulti (l : list push) | NPop (maxsize : Z) | NMultiPop | NClear | NPushout.
Inductive nres := NNothing | NPopped (r : option (Z * push)) | NBatch (b : option mpush) | NCount (n : nat).
(** What happens: the handler is given a batch, by the loop of pushout() (line 32) or behind it ([behind], line 44); records stored are
    destroyed, by clear() (line 167) or at the end of a pushout() that gave a batch behind its loop (line 47); a call ends. *)
Inductive nev := NGiven (behind : bool) (m : mpush) | NCleared (l : list push) | NWiped (l : list push) | NDone (c : ncall) (r : nres).

(** What the handler does: the calls it makes the first time it is called, the second time, and so on; when the list is used up it only
    receives.  (A handler may decide on what it has seen: whatever it decides, a run makes some such list of calls.) *)
Definition hprog := list (list ncall).

Section Reenter.
  Variable esc : name -> name.
  Variable left : name -> name.

  (** An element of _top whose record has been moved from, basic_packer.cpp:39-42: it keeps its size and its legend *)
  Definition hollow_top (t : top) : top := mk_top (t_size t) (hollow left (t_rec t)) (t_legend t).

  (** [n] bounds the recursion; None says that it was too small or that a call does not return. *)
  (** The loop of basic_packer::pushout, basic_packer.cpp:30-34.  The first component counts the rounds (line 33). *)
  Fixpoint n_loop (n : nat) (p : packer) (hs : hprog) {struct n} : option (nat * list nev * packer * hprog) :=
    match n with
    | O => None
    | S n' =>
        match pk_multi_pop esc p with
        | None => None
        | Some (None, p1) => Some (O, [], p1, hs)
        | Some (Some m, p1) =>
            match n_calls n' (hd [] hs) p1 (tl hs) with
            | None => None
            | Some (evs, p2, hs2) =>
                match n_loop n' p2 hs2 with
                | None => None
                | Some (k, evs', p3, hs3) => Some (S k, NGiven false m :: evs ++ evs', p3, hs3)
                end
            end
        end
    end
  (** Calls one after the other. *)
  with n_calls (n : nat) (cs : list ncall) (p : packer) (hs : hprog) {struct n} : option (list nev * packer * hprog) :=
    match n with
    | O => None
    | S n' =>
        match cs with
        | [] => Some ([], p, hs)
        | c :: cs' =>
            match n_call n' c p hs with
            | None => None
            | Some (evs, p1, hs1) =>
                match n_calls n' cs' p1 hs1 with
                | None => None
                | Some (evs', p2, hs2) => Some (evs ++ evs', p2, hs2)
                end
            end
        end
    end
  (** One call.  basic_packer::pushout, basic_packer.cpp:24-50: behind the loop the handler is called (line 44) while _top still holds the
      records moved from; line 47 destroys what _top holds when the handler has returned. *)
  with n_call (n : nat) (c : ncall) (p : packer) (hs : hprog) {struct n} : option (list nev * packer * hprog) :=
    match n with
    | O => None
    | S n' =>
        match c with
        | NPush r => match pk_push esc r p with None => None | Some p1 => Some ([NDone c NNothing], p1, hs) end
        | NMulti l => match pk_pushes esc l p with None => None | Some p1 => Some ([NDone c NNothing], p1, hs) end
        | NPop m => match pk_pop m p with
                    | None => Some ([NDone c (NPopped None)], p, hs)
                    | Some (t, p1) => Some ([NDone c (NPopped (Some (t_size t, t_rec t)))], p1, hs)
                    end
        | NMultiPop => match pk_multi_pop esc p with None => None | Some (b, p1) => Some ([NDone c (NBatch b)], p1, hs) end
        | NClear => Some ([NCleared (map t_rec (pk_top p)); NDone c NNothing], pk_clear p, hs)
        | NPushout =>
            if pk_handler p then
              match n_loop n' p hs with
              | None => None
              | Some (k, evs, p1, hs1) =>
                  match pk_top p1 with
                  | [] => Some (evs ++ [NDone c (NCount k)], p1, hs1)
                  | _ => match compact (mk_mpush sep0 [] (map t_rec (pk_top p1))) with
                         | None => None
                         | Some (_, m) =>
                             match n_calls n' (hd [] hs1) (pk_set (map hollow_top (pk_top p1)) p1) (tl hs1) with
                             | None => None
                             | Some (evs', p2, hs2) =>
                                 Some (evs ++ NGiven true m :: evs' ++ [NWiped (map t_rec (pk_top p2)); NDone c (NCount k)],
                                       pk_set [] p2, hs2)
                             end
                         end
                  end
              end
            else Some ([NDone c (NCount O)], p, hs)
        end
    end.
End Reenter.
