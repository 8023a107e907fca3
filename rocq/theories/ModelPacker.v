(** wrtstat/multi_packer/basic_packer.{hpp,cpp}, packer_options.hpp.
    Loops run with fuel; [None] means that the fuel was used up, i.e. the loop has not ended (see C43).
    Sizes of texts in memory are below 2^64, so the size_t arithmetic on them is exact; it is done in Z. *)
From Coq Require Import Ascii ZArith NArith List Bool.
From Verif Require Import Base ModelTypes ModelRegistry ModelJson.
Import ListNotations.
Local Open Scope Z_scope.
Local Open Scope list_scope.

Definition zlen {A} (l : list A) : Z := Z.of_nat (length l).

(** packer_options, packer_options.hpp:13-26, without the unused debug fields *)
Record popts := mk_popts {
  po_push : Z; po_data : Z; po_json : Z; po_jcompact : bool; po_sep : name; po_ncompact : bool }.

(** std::string::find(sep): offset of the first occurrence *)
Fixpoint is_prefix (a b : name) : bool :=
  match a, b with
  | [], _ => true
  | x :: a', y :: b' => if ascii_dec x y then is_prefix a' b' else false
  | _ :: _, [] => false
  end.
Fixpoint find_sub (sep s : name) : option nat :=
  if is_prefix sep s then Some O
  else match s with
       | [] => None
       | _ :: t => match find_sub sep t with Some k => Some (S k) | None => None end
       end.

(** basic_packer::findorcre_, basic_packer.cpp:121-129 *)
Fixpoint find_pos (n : name) (l : list name) : option nat :=
  match l with
  | [] => None
  | x :: t => if name_eqb x n then Some O else match find_pos n t with Some k => Some (S k) | None => None end
  end.
Definition findorcre (n : name) (legend : list name) : nat * list name :=
  match find_pos n legend with
  | Some k => (k, legend)
  | None => (length legend, legend ++ [n])
  end.

(** The loop of basic_packer::compact_, basic_packer.cpp:103-119.  [rest] is the name from cur_pos on. *)
Fixpoint compact_loop (fuel : nat) (sep rest : name) (legend : list name) (out : name) : option (name * list name) :=
  match fuel with
  | O => None
  | S fuel =>
      match find_sub sep rest with
      | None => let '(k, legend) := findorcre rest legend in Some (out ++ dec (N.of_nat k), legend)
      | Some pos =>
          let '(k, legend) := findorcre (firstn pos rest) legend in
          compact_loop fuel sep (skipn (pos + length sep) rest) legend (out ++ dec (N.of_nat k) ++ ["~"%char])
      end
  end.
Definition compact_name (n : name) (legend : list name) (sep : name) : option (name * list name) :=
  compact_loop (S (length n)) sep n legend [].

(** basic_packer::compact, basic_packer.cpp:91-101 *)
Fixpoint compact_data (sep : name) (l : list push) (legend : list name) : option (list push * list name) :=
  match l with
  | [] => Some ([], legend)
  | p :: t =>
      match compact_name (pu_name p) legend sep with
      | None => None
      | Some (n, legend) =>
          match compact_data sep t legend with
          | None => None
          | Some (t', legend) => Some (mk_push n (pu_data p) :: t', legend)
          end
      end
  end.
Definition compact (m : mpush) : option (bool * mpush) :=
  match mp_sep m with
  | [] => Some (false, m)
  | sep => match compact_data sep (mp_data m) (mp_legend m) with
           | None => None
           | Some (d, legend) => Some (true, mk_mpush sep legend d)
           end
  end.

(** wjson::parser::is_number and unserialize_integer (not in /repo): a number starts here; its value and what follows it. *)
Record jparser := mk_jparser { jp_isnum : name -> bool; jp_int : name -> N * name }.

(** The loop over one name in basic_packer::recompact, basic_packer.cpp:343-369.  Each turn consumes at least one character
    of a well-formed name, so length + 1 turns suffice; [None] is "return false". *)
Fixpoint expand_loop (jp : jparser) (fuel : nat) (sep : name) (legend : list name) (rest out : name) : option name :=
  match fuel with
  | O => None
  | S fuel =>
      match rest with
      | [] => Some out
      | _ =>
          if negb (jp_isnum jp rest) then None
          else let '(pos, rest) := jp_int jp rest in
               if (N.of_nat (length legend) <=? pos)%N then None
               else let out := out ++ nth (N.to_nat pos) legend [] in
                    match rest with
                    | [] => Some out
                    | c :: rest => if ascii_dec c "~"%char then expand_loop jp fuel sep legend rest (out ++ sep) else None
                    end
      end
  end.
Definition expand_name (jp : jparser) (sep : name) (legend : list name) (n : name) : option name :=
  expand_loop jp (S (length n)) sep legend n [].

(** basic_packer::recompact, basic_packer.cpp:327-374: names are rewritten one by one, the first failure returns. *)
Fixpoint expand_data (jp : jparser) (sep : name) (legend : list name) (l : list push) : bool * list push :=
  match l with
  | [] => (true, [])
  | p :: t =>
      match expand_name jp sep legend (pu_name p) with
      | None => (false, l)
      | Some n => let '(b, t') := expand_data jp sep legend t in (b, mk_push n (pu_data p) :: t')
      end
  end.
Definition recompact (jp : jparser) (m : mpush) : bool * mpush :=
  match mp_legend m with
  | [] => (true, m)
  | legend =>
      match mp_sep m with
      | [] => (false, m)
      | sep => let '(b, d) := expand_data jp sep legend (mp_data m) in
               (b, mk_mpush sep (if b then [] else legend) d)
      end
  end.

(** An element of _top, basic_packer.hpp:26-27, and the packer's state, basic_packer.hpp:69-72.  The handler is a flag:
    set or null; what it receives is returned as a list. *)
Record top := mk_top { t_size : Z; t_rec : push; t_legend : list name }.
Record packer := mk_packer { pk_opt : popts; pk_handler : bool; pk_top : list top }.
(** basic_packer::basic_packer, basic_packer.cpp:18-22 *)
Definition pk_new (o : popts) (handler : bool) : packer := mk_packer o handler [].
Definition pk_set (l : list top) (p : packer) : packer := mk_packer (pk_opt p) (pk_handler p) l.

Section Packer.
  Variable esc : name -> name.

  (** basic_packer::calc_json_size, basic_packer.cpp:141-163 *)
  Definition push_size (compact : bool) (r : push) : Z := zlen (push_text esc compact r).
  Definition mpush_size (compact : bool) (m : mpush) : Z := zlen (mpush_text esc compact m).

  (** std::lower_bound(_top, (size, null, {})): a null pointer compares below every other, so this is the first element
      whose size is not below [size]. *)
  Fixpoint lower_bound (size : Z) (l : list top) : nat :=
    match l with
    | [] => O
    | t :: l => if t_size t <? size then S (lower_bound size l) else O
    end.

  (** basic_packer::push(ptr), basic_packer.cpp:65-81; the other overloads (52-63) build the request and call it *)
  Definition pk_push (r : push) (p : packer) : option packer :=
    let o := pk_opt p in
    let size := push_size (po_jcompact o) r in
    let ins := fun size legend =>
      let k := lower_bound size (pk_top p) in
      pk_set (firstn k (pk_top p) ++ mk_top size r legend :: skipn k (pk_top p)) p in
    if po_ncompact o then
      match compact_name (pu_name r) [] (po_sep o) with
      | None => None
      | Some (n, legend) => Some (ins (size - zlen (pu_name r) + zlen n) legend)
      end
    else Some (ins size []).

  (** basic_packer::multi_push, basic_packer.cpp:83-89; always true *)
  Fixpoint pk_pushes (l : list push) (p : packer) : option packer :=
    match l with
    | [] => Some p
    | r :: t => match pk_push r p with None => None | Some p => pk_pushes t p end
    end.

  (** clear, empty, size, max_val, min_val, basic_packer.cpp:165-215 *)
  Definition pk_clear (p : packer) : packer := pk_set [] p.
  Definition pk_empty (p : packer) : bool := match pk_top p with [] => true | _ => false end.
  Definition pk_size (p : packer) : nat := length (pk_top p).
  Definition pk_data_size (p : packer) : nat := list_sum (map (fun t => length (ad_data (pu_data (t_rec t)))) (pk_top p)).
  Definition pk_max_val (p : packer) : Z := match rev (pk_top p) with [] => 0 | t :: _ => t_size t end.
  Definition pk_min_val (p : packer) : Z := match pk_top p with [] => 0 | t :: _ => t_size t end.

  (** basic_packer::pop_by_json_size, basic_packer.cpp:217-249 *)
  Definition remove_nth {A} (k : nat) (l : list A) : list A := firstn k l ++ skipn (S k) l.
  Definition pk_pop (maxsize : Z) (p : packer) : option (top * packer) :=
    match pk_top p with
    | [] => None
    | _ =>
        let k := lower_bound maxsize (pk_top p) in
        let pos := match nth_error (pk_top p) k with
                   | None => Some (length (pk_top p) - 1)%nat
                   | Some t => if t_size t =? maxsize then Some k else match k with O => None | S k' => Some k' end
                   end in
        match pos with
        | None => None
        | Some i => match nth_error (pk_top p) i with
                    | None => None
                    | Some t => Some (t, pk_set (remove_nth i (pk_top p)) p)
                    end
        end
    end.

  (** legend_set: the names not seen yet cost their length + 4, basic_packer.cpp:274-278 *)
  Fixpoint charge (legend seen : list name) (cur : Z) : Z * list name :=
    match legend with
    | [] => (cur, seen)
    | n :: t => if existsb (name_eqb n) seen then charge t seen cur else charge t (n :: seen) (cur + (zlen n + 4))
    end.

  (** The loop of basic_packer::multi_pop, basic_packer.cpp:268-315.  At line 303 *p has been moved from: its data vector
      is empty, so the size used there is 0. *)
  Fixpoint pop_loop (fuel : nat) (jl pl dl : Z) (seen : list name) (res : list push) (p : packer) : option (list push * packer) :=
    match fuel with
    | O => None
    | S fuel =>
        if jl <=? 0 then Some (res, p)
        else match pk_pop jl p with
             | None => Some (res, p)
             | Some (t, p1) =>
                 let '(cur, seen) := charge (t_legend t) seen (t_size t) in
                 if cur <=? jl then
                   let res := res ++ [t_rec t] in
                   let jl := jl - cur in
                   let jl := if 0 <? jl then jl - (if po_json (pk_opt p) =? 0 then 0 else 1) else jl in
                   let pl := if po_push (pk_opt p) =? 0 then pl else pl - 1 in
                   if negb (po_push (pk_opt p) =? 0) && (pl =? 0) then Some (res, p1)
                   else let moved_size := 0 in
                        let dl' := if po_data (pk_opt p) =? 0 then dl else dl - moved_size in
                        if negb (po_data (pk_opt p) =? 0) && ((dl <? moved_size) || (dl' =? 0)) then Some (res, p1)
                        else pop_loop fuel jl pl dl' seen res p1
                 else match pk_push (t_rec t) p1 with
                      | None => None
                      | Some p2 => Some (res, p2)
                      end
             end
    end.

  (** basic_packer::multi_pop, basic_packer.cpp:253-325.  Outer None: the call does not return. *)
  Definition pk_multi_pop (p : packer) : option (option mpush * packer) :=
    match pk_top p with
    | [] => Some (None, p)
    | _ =>
        let o := pk_opt p in
        let empty_size := mpush_size (po_jcompact o) mpush0 in
        if po_json o <? empty_size then Some (None, p)
        else match pop_loop (S (length (pk_top p))) (po_json o - empty_size) (po_push o) (po_data o) [] [] p with
             | None => None
             | Some ([], p1) => Some (None, p1)
             | Some (res, p1) =>
                 let m := mk_mpush (po_sep o) [] res in
                 if po_ncompact o then match compact m with None => None | Some (_, m) => Some (Some m, p1) end
                 else Some (Some m, p1)
             end
    end.

  (** basic_packer::pushout, basic_packer.cpp:24-50: the batches the handler receives, in order, and the value returned *)
  Fixpoint pushout_loop (fuel : nat) (p : packer) : option (list mpush * packer) :=
    match fuel with
    | O => None
    | S fuel =>
        match pk_multi_pop p with
        | None => None
        | Some (None, p1) => Some ([], p1)
        | Some (Some m, p1) => match pushout_loop fuel p1 with None => None | Some (ms, p2) => Some (m :: ms, p2) end
        end
    end.
  Definition pk_pushout (p : packer) : option (nat * list mpush * packer) :=
    if pk_handler p then
      match pushout_loop (S (length (pk_top p))) p with
      | None => None
      | Some (ms, p1) =>
          match pk_top p1 with
          | [] => Some (length ms, ms, p1)
          | l => match compact (mk_mpush sep0 [] (map t_rec l)) with
                 | None => None
                 | Some (_, m) => Some (length ms, ms ++ [m], pk_set [] p1)
                 end
          end
      end
    else Some (O, [], p).
End Packer.
