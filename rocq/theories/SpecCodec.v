(** What is required of the JSON library, a parser that meets it, and the ranges of C++ types. *)
From Coq Require Import String Ascii ZArith NArith List Bool.
From Verif Require Import Base ModelTypes ModelReducer ModelSeparator ModelAggregator ModelRegistry ModelJson ModelPacker SpecPacker ModelCodec.
Import ListNotations.
Local Open Scope Z_scope.
Local Open Scope list_scope.

(** A character that needs no escaping. *)
Definition plain_char (c : ascii) : bool := let n := nat_of_ascii c in (32 <=? n)%nat && negb (n =? 34)%nat && negb (n =? 92)%nat.
(** Member names are written without escaping. *)
Fixpoint keys_plain (j : json) : bool :=
  match j with
  | JNum _ | JBool _ | JStr _ => true
  | JArr l => forallb keys_plain l
  | JObj l => forallb (fun p => forallb plain_char (fst p) && keys_plain (snd p)) l
  end.
(** The contract: a value that was written, whatever follows it, is read back. *)
Definition wjson_ok (esc : name -> name) (parse : name -> option json) : Prop :=
  forall j rest, keys_plain j = true -> no_digit rest -> parse (jprint esc j ++ rest) = Some j.

Definition int64 (z : Z) : Prop := - 2 ^ 63 <= z < 2 ^ 63.
Definition uint64 (z : Z) : Prop := 0 <= z < two64.
(** Every field holds a value of its C++ type. *)
Definition info_typed (i : rinfo) : Prop :=
  int64 (ri_ts i) /\ uint64 (ri_count i) /\ uint64 (ri_lossy i) /\ int64 (ri_min i) /\ int64 (ri_max i) /\ int64 (ri_avg i).
Definition perc_typed (p : perc) : Prop := int64 (p50 p) /\ int64 (p80 p) /\ int64 (p95 p) /\ int64 (p99 p) /\ int64 (p100 p).
Definition push_typed (p : push) : Prop := info_typed (ad_info (pu_data p)) /\ perc_typed (ad_perc (pu_data p)) /\ Forall int64 (ad_data (pu_data p)).
Definition aopts_typed (o : aopts) : Prop :=
  let s := ao_sep o in let r := so_red s in
  uint64 (Z.of_nat (o_limit r)) /\ uint64 (Z.of_nat (o_levels r)) /\ int64 (so_step s) /\ int64 (so_soiled s) /\ uint64 (Z.of_nat (ao_out o)).
Definition wopts_typed (o : wopts) : Prop := aopts_typed (rgo_agg (wo_rg o)) /\ uint64 (Z.of_nat (wo_pool o)).

(** ** A parser for JSON texts that meets the contract *)
Definition unhex (c : ascii) : option nat :=
  let n := nat_of_ascii c in
  if (48 <=? n)%nat && (n <=? 57)%nat then Some (n - 48)%nat
  else if (97 <=? n)%nat && (n <=? 102)%nat then Some (n - 87)%nat
  else if (65 <=? n)%nat && (n <=? 70)%nat then Some (n - 55)%nat else None.
Definition unesc (c : ascii) : option ascii :=
  match nat_of_ascii c with
  | 34%nat | 92%nat | 47%nat => Some c
  | 98%nat => Some (ascii_of_nat 8) | 102%nat => Some (ascii_of_nat 12) | 110%nat => Some (ascii_of_nat 10)
  | 114%nat => Some (ascii_of_nat 13) | 116%nat => Some (ascii_of_nat 9)
  | _ => None
  end.
Fixpoint p_str (s : name) : option (name * name) :=
  match s with
  | [] => None
  | c :: t =>
      if ascii_dec c quote then Some ([], t)
      else if ascii_dec c (ascii_of_nat 92) then
        match t with
        | [] => None
        | d :: t1 =>
            if ascii_dec d "u"%char then
              match t1 with
              | z1 :: z2 :: x :: y :: t2 =>
                  match unhex z1, unhex z2, unhex x, unhex y with
                  | Some O, Some O, Some a, Some b =>
                      match p_str t2 with Some (r, rest) => Some (ascii_of_nat (16 * a + b) :: r, rest) | None => None end
                  | _, _, _, _ => None
                  end
              | _ => None
              end
            else match unesc d, p_str t1 with Some e, Some (r, rest) => Some (e :: r, rest) | _, _ => None end
        end
      else match p_str t with Some (r, rest) => Some (c :: r, rest) | None => None end
  end.
Definition lit (w : string) (j : json) (s : name) : option (json * name) :=
  if is_prefix (str w) s then Some (j, skipn (length (str w)) s) else None.
Definition p_num (s : name) : option (json * name) :=
  match s with
  | [] => None
  | c :: t =>
      if is_digit c then let '(n, r) := digits 0 s in Some (JNum (Z.of_N n), r)
      else if (nat_of_ascii c =? 45)%nat then
        match t with d :: _ => if is_digit d then let '(n, r) := digits 0 t in Some (JNum (- Z.of_N n), r) else None | [] => None end
      else None
  end.
Section Parser.
  (** [v]: reads a value *)
  Variable v : name -> option (json * name).
  (** elements of an array after '[' or ',' *)
  Fixpoint p_elems (fuel : nat) (s : name) : option (list json * name) :=
    match fuel with
    | O => None
    | S f =>
        match v s with
        | None => None
        | Some (j, r) =>
            match skip_ws r with
            | c :: r1 =>
                if ascii_dec c ","%char then match p_elems f r1 with Some (l, r2) => Some (j :: l, r2) | None => None end
                else if ascii_dec c "]"%char then Some ([j], r1) else None
            | [] => None
            end
        end
    end.
  Fixpoint p_members (fuel : nat) (s : name) : option (list (name * json) * name) :=
    match fuel with
    | O => None
    | S f =>
        match skip_ws s with
        | q :: s1 =>
            if ascii_dec q quote then
              match p_str s1 with
              | None => None
              | Some (k, r) =>
                  match skip_ws r with
                  | c :: r1 =>
                      if ascii_dec c ":"%char then
                        match v r1 with
                        | None => None
                        | Some (j, r2) =>
                            match skip_ws r2 with
                            | c2 :: r3 =>
                                if ascii_dec c2 ","%char then match p_members f r3 with Some (l, r4) => Some ((k, j) :: l, r4) | None => None end
                                else if ascii_dec c2 "}"%char then Some ([(k, j)], r3) else None
                            | [] => None
                            end
                        end
                      else None
                  | [] => None
                  end
              end
            else None
        | [] => None
        end
    end.
End Parser.
Fixpoint p_val (fuel : nat) (s : name) : option (json * name) :=
  match fuel with
  | O => None
  | S f =>
      match skip_ws s with
      | [] => None
      | c :: t =>
          if ascii_dec c quote then match p_str t with Some (x, r) => Some (JStr x, r) | None => None end
          else if ascii_dec c "["%char then
            match skip_ws t with
            | d :: r => if ascii_dec d "]"%char then Some (JArr [], r)
                        else match p_elems (p_val f) (length t) t with Some (l, r) => Some (JArr l, r) | None => None end
            | [] => None
            end
          else if ascii_dec c "{"%char then
            match skip_ws t with
            | d :: r => if ascii_dec d "}"%char then Some (JObj [], r)
                        else match p_members (p_val f) (length t) t with Some (l, r) => Some (JObj l, r) | None => None end
            | [] => None
            end
          else if ascii_dec c "t"%char then lit "true" (JBool true) (c :: t)
          else if ascii_dec c "f"%char then lit "false" (JBool false) (c :: t)
          else p_num (c :: t)
      end
  end.
Definition parse_std (s : name) : option json := match p_val (S (length s)) s with Some (j, _) => Some j | None => None end.
