(** wrtstat/meters: the points a program creates around what it measures. *)
From Coq Require Import ZArith List Bool Arith.
From Verif Require Import Base ModelRegistry.
Import ListNotations.
Local Open Scope Z_scope.

(** The four classes of points; [d]: nanoseconds per tick of the duration type D *)
Inductive kind := KTime (d : Z) | KSize | KValue | KComp (d : Z).

(** The members of time_point (time_meter.hpp:77-81), size_point (size_meter.hpp:69-71), value_point (value_meter.hpp:75-78)
    and composite_point (composite_meter.hpp:115-120), taken together.  A meter function is known by a number; null is [None].
    The resolution only selects a clock, whose reading is an argument. *)
Record point := mk_point { p_kind : kind; p_fun : option nat; p_count : Z; p_value : Z; p_read : Z; p_write : Z; p_start : Z }.
(** One call of a meter function: (now, value, count) or (now, span, count, readed, writed) *)
Record report := mk_report { rp_fun : nat; rp_now : Z; rp_value : Z; rp_count : Z; rp_sizes : option (Z * Z) }.

(** The constructors: time_meter.hpp:30-36, size_meter.hpp:22-27, value_meter.hpp:24-30, composite_meter.hpp:30-40.  [clk]: the
    steady clock (nanoseconds); [shift] only of a composite point. *)
Definition p_new (k : kind) (f : option nat) (count value rd wr shift clk : Z) : point :=
  match k with
  | KTime _ => mk_point k f count 0 0 0 clk
  | KSize => mk_point k f 0 value 0 0 0
  | KValue => mk_point k f count value 0 0 0
  | KComp d => mk_point k f count 0 rd wr (if shift =? 0 then clk else clk - shift * d)
  end.
Definition p_set_fun (f : option nat) (p : point) : point :=
  mk_point (p_kind p) f (p_count p) (p_value p) (p_read p) (p_write p) (p_start p).

(** std::chrono::duration_cast<D>(finish - start).count() *)
Definition span (d start finish : Z) : Z := Z.quot (finish - start) d.
(** push(now): time_meter.hpp:56-64, size_meter.hpp:34-40, value_meter.hpp:37-42, composite_meter.hpp:92-101; push() reads the
    wall clock for [now] *)
Definition p_push (now clk : Z) (p : point) : list report * point :=
  match p_fun p with
  | None => ([], p)
  | Some f =>
      match p_kind p with
      | KTime d => ([mk_report f now (span d (p_start p) clk) (p_count p) None], p_set_fun None p)
      | KSize => ([mk_report f now (p_value p) (u64 (p_value p)) None], p_set_fun None p)
      | KValue => ([mk_report f now (p_value p) (p_count p) None], p)
      | KComp d => ([mk_report f now (span d (p_start p) clk) (p_count p) (Some (p_read p, p_write p))], p_set_fun None p)
      end
  end.
(** reset(): time_meter.hpp:43-46, size_meter.hpp:55-58, value_meter.hpp:60-64, composite_meter.hpp:47-52 *)
Definition p_reset (p : point) : point :=
  match p_kind p with
  | KTime _ => mk_point (p_kind p) (p_fun p) 0 (p_value p) (p_read p) (p_write p) (p_start p)
  | KSize => mk_point (p_kind p) (p_fun p) (p_count p) 0 (p_read p) (p_write p) (p_start p)
  | KValue => mk_point (p_kind p) (p_fun p) 0 0 (p_read p) (p_write p) (p_start p)
  | KComp _ => mk_point (p_kind p) (p_fun p) 0 (p_value p) 0 0 (p_start p)
  end.
(** reset(fun, ...): time_meter.hpp:48-54, size_meter.hpp:60-65, value_meter.hpp:66-72, composite_meter.hpp:54-65: push() first *)
Definition p_reset_fun (f : option nat) (count value rd wr shift now clk clk2 : Z) (p : point) : list report * point :=
  (fst (p_push now clk p), p_new (p_kind p) f count value rd wr shift clk2).
(** clone(...): time_meter.hpp:71-74, size_meter.hpp:50-53, value_meter.hpp:55-58, composite_meter.hpp:108-112 *)
Definition p_clone (count value rd wr shift clk : Z) (p : point) : point := p_new (p_kind p) (p_fun p) count value rd wr shift clk.
(** The setters: set_size (size_meter.hpp:47), set_value, set_count (value_meter.hpp:49,52), set_read_size, set_write_size,
    set_start_time (composite_meter.hpp:67-90) *)
Inductive setter := SetValue (v : Z) | SetCount (v : Z) | SetRead (v : Z) | SetWrite (v : Z) | SetStart (v : Z).
Definition p_set (s : setter) (p : point) : point :=
  match p_kind p, s with
  | KSize, SetValue v => mk_point KSize (p_fun p) (p_count p) v (p_read p) (p_write p) (p_start p)
  | KValue, SetValue v => mk_point KValue (p_fun p) (p_count p) v (p_read p) (p_write p) (p_start p)
  | KValue, SetCount v => mk_point KValue (p_fun p) v (p_value p) (p_read p) (p_write p) (p_start p)
  | KComp d, SetRead v => mk_point (KComp d) (p_fun p) (p_count p) (p_value p) v (p_write p) (p_start p)
  | KComp d, SetWrite v => mk_point (KComp d) (p_fun p) (p_count p) (p_value p) (p_read p) v (p_start p)
  | KComp d, SetStart v => mk_point (KComp d) (p_fun p) (p_count p) (p_value p) (p_read p) (p_write p) v
  | _, _ => p
  end.

(** A program with points.  Objects are numbered in the order of their construction.  Moving leaves an empty std::function
    behind (what every common library does; the standard leaves it open), the other members are copied. *)
Inductive mop :=
| MNew (k : kind) (f : option nat) (count value rd wr shift clk : Z)
| MSet (i : nat) (s : setter)
| MPush (i : nat) (now clk : Z)
| MReset (i : nat)
| MResetFun (i : nat) (f : option nat) (count value rd wr shift now clk clk2 : Z)
| MClone (i : nat) (count value rd wr shift clk : Z)
| MMove (i : nat)                       (* point q( std::move(i) ) *)
| MAssign (i j : nat)                   (* i = std::move(j) : the defaulted move assignment *)
| MDestroy (i : nat) (now clk : Z).     (* the destructors push(): time_meter.hpp:38-41, size_meter.hpp:29-32, value_meter.hpp:32-35, composite_meter.hpp:42-45 *)

(** What happens: a point gets a meter function, it reports, it is overwritten *)
Inductive mevent := EvStart (f : nat) | EvReport (r : report) | EvLost (f : nat).
Definition starts (f : option nat) : list mevent := match f with None => [] | Some f => [EvStart f] end.
Definition lost (f : option nat) : list mevent := match f with None => [] | Some f => [EvLost f] end.
Definition store := list (option point).
Definition m_get (i : nat) (s : store) : option point := match nth_error s i with Some (Some p) => Some p | _ => None end.
(** operations on objects that do not exist have no effect *)
Definition m_do (o : mop) (s : store) : list mevent * store :=
  match o with
  | MNew k f c v rd wr sh clk => (starts f, s ++ [Some (p_new k f c v rd wr sh clk)])
  | MSet i x => match m_get i s with None => ([], s) | Some p => ([], set_nth i (Some (p_set x p)) s) end
  | MPush i now clk => match m_get i s with None => ([], s) | Some p => (map EvReport (fst (p_push now clk p)), set_nth i (Some (snd (p_push now clk p))) s) end
  | MReset i => match m_get i s with None => ([], s) | Some p => ([], set_nth i (Some (p_reset p)) s) end
  | MResetFun i f c v rd wr sh now clk clk2 =>
      match m_get i s with None => ([], s) | Some p =>
        (map EvReport (fst (p_reset_fun f c v rd wr sh now clk clk2 p)) ++ starts f, set_nth i (Some (snd (p_reset_fun f c v rd wr sh now clk clk2 p))) s) end
  | MClone i c v rd wr sh clk => match m_get i s with None => ([], s) | Some p => (starts (p_fun p), s ++ [Some (p_clone c v rd wr sh clk p)]) end
  | MMove i => match m_get i s with None => ([], s) | Some p => ([], set_nth i (Some (p_set_fun None p)) s ++ [Some p]) end
  | MAssign i j =>
      match m_get i s, m_get j s with
      | Some p, Some q => if (i =? j)%nat then ([], s) else (lost (p_fun p), set_nth j (Some (p_set_fun None q)) (set_nth i (Some q) s))
      | _, _ => ([], s)
      end
  | MDestroy i now clk => match m_get i s with None => ([], s) | Some p => (map EvReport (fst (p_push now clk p)), set_nth i None s) end
  end.
Fixpoint m_run (os : list mop) (s : store) : list mevent * store :=
  match os with
  | [] => ([], s)
  | o :: r => let '(e1, s1) := m_do o s in let '(e2, s2) := m_run r s1 in (e1 ++ e2, s2)
  end.

(** multi_meter::create (multi_meter.hpp:97-107) on meters with functions [fs] - one reading of the steady clock for each -
    and the functions of multi_point: reset (40-44), set_read_size (52-56), set_write_size (46-50), clone (59-69).  The
    destructor (25-28) and pop_back destroy the points, first to last. *)
Definition mm_create (k : kind) (fs : list (option nat)) (count value rd wr shift : Z) (clks : list Z) : list point :=
  map (fun x => p_new k (fst x) count value rd wr shift (snd x)) (combine fs clks).
Definition mp_set (s : setter) (l : list point) : list point := map (p_set s) l.
Definition mp_reset (l : list point) : list point := map p_reset l.
Definition mp_clone (count value rd wr shift : Z) (clks : list Z) (l : list point) : list point :=
  map (fun x => p_clone count value rd wr shift (snd x) (fst x)) (combine l clks).
(** [ts]: the readings of wall clock and steady clock at each point's destruction *)
Definition mp_destroy (ts : list (Z * Z)) (l : list point) : list report :=
  flat_map (fun x => fst (p_push (fst (snd x)) (snd (snd x)) (fst x))) (combine l ts).
