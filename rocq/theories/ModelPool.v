(** wrtstat/system/pool.hpp and allocator.hpp: the pool of value buffers. *)
From Coq Require Import ZArith List Bool Arith.
From Verif Require Import Base.
Import ListNotations.

(** A std::vector<value_type> behind a unique_ptr: an identity, the contents and the capacity. *)
Record buf := mk_buf { b_id : nat; b_data : list Z; b_cap : nat }.

(** class pool, pool.hpp:91-93; the head of [q_pool] is its back.  [q_next]: identity of the next new buffer. *)
Record bpool := mk_bpool { q_item : nat; q_max : nat; q_pool : list buf; q_next : nat }.
(** pool::pool, pool.hpp:19-23 *)
Definition q_new (item max : nat) : bpool := mk_bpool item max [] 0.
Definition q_set (l : list buf) (q : bpool) : bpool := mk_bpool (q_item q) (q_max q) l (q_next q).

(** pool::empty, pool.hpp:36-40 *)
Definition q_empty (q : bpool) : bool := match q_pool q with [] => true | _ => false end.
(** pool::filled, pool.hpp:42-46 *)
Definition q_filled (q : bpool) : bool := length (q_pool q) =? q_max q.
(** pool::create, the branch of an empty pool, pool.hpp:54-56: reserves item_size, empty *)
Definition q_fresh (q : bpool) : buf * bpool :=
  (mk_buf (q_next q) [] (q_item q), mk_bpool (q_item q) (q_max q) (q_pool q) (S (q_next q))).
(** pool::create, the other branch, pool.hpp:60-62: back() and pop_back() of an empty deque are undefined *)
Definition q_take (q : bpool) : outcome (buf * bpool) :=
  match q_pool q with [] => Ub | b :: r => Ok (b, q_set r q) end.
(** pool::free, pool.hpp:75-83: a larger buffer is cut to item_size (resize and shrink_to_fit, taken as binding), a smaller one grows
    by resize(item_size) as libstdc++ does it, to at least twice its size; the contents are cleared *)
Definition q_cap (item : nat) (b : buf) : nat :=
  if item <=? b_cap b then item else length (b_data b) + Nat.max (length (b_data b)) (item - length (b_data b)).
Definition q_clean (q : bpool) (b : buf) : buf := mk_buf (b_id b) [] (q_cap (q_item q) b).
(** pool::free, pool.hpp:85-86 *)
Definition q_put (b : buf) (q : bpool) : bpool := q_set (b :: q_pool q) q.

(** pool::create, pool.hpp:49-65, called by one thread at a time *)
Definition q_create (q : bpool) : outcome (buf * bpool) := if q_empty q then Ok (q_fresh q) else q_take q.
(** pool::free, pool.hpp:67-88: the buffer is given back when the pool is full *)
Definition q_free (b : option buf) (q : bpool) : option buf * bpool :=
  match b with
  | None => (None, q)
  | Some b => if q_filled q then (Some b, q) else (None, q_put (q_clean q b) q)
  end.

(** Several threads.  empty() and filled() take the read lock for themselves, the rest of create() and free() the write
    lock; between them other threads may run. *)
Inductive qpc := QIdle | QTake | QPut (b : buf).   (* saw a non-empty pool; saw room for b *)
Record qthread := mk_qthread { q_pc : qpc; q_held : list buf }.
Record qstate := mk_qstate { qs_pool : bpool; qs_threads : list qthread }.
(** [QCreate]: create() up to the point where it has looked at the pool; [QFree i]: free() of the i-th buffer held, likewise;
    [QGo]: the rest of the call; [QWrite i d c]: the owner fills its i-th buffer (the capacity may become c). *)
Inductive qact := QCreate | QFree (i : nat) | QGo | QWrite (i : nat) (d : list Z) (c : nat).

Fixpoint remove_at {A} (i : nat) (l : list A) : list A :=
  match i, l with
  | _, [] => []
  | O, _ :: t => t
  | S i, x :: t => x :: remove_at i t
  end.

Definition q_step (a : qact) (q : bpool) (t : qthread) : outcome (option (bpool * qthread)) :=
  match a, q_pc t with
  | QCreate, QIdle =>
      if q_empty q then let '(b, q') := q_fresh q in Ok (Some (q', mk_qthread QIdle (b :: q_held t)))
      else Ok (Some (q, mk_qthread QTake (q_held t)))
  | QFree i, QIdle =>
      match nth_error (q_held t) i with
      | None => Ok None
      | Some b => if q_filled q then Ok (Some (q, mk_qthread QIdle (remove_at i (q_held t)))) (* returned to the caller, who drops it *)
                  else Ok (Some (q, mk_qthread (QPut (q_clean q b)) (remove_at i (q_held t))))
      end
  | QWrite i d c, QIdle =>
      match nth_error (q_held t) i with
      | None => Ok None
      | Some b => if length d <=? c then Ok (Some (q, mk_qthread QIdle (mk_buf (b_id b) d c :: remove_at i (q_held t)))) else Ok None
      end
  | QGo, QTake => '(b, q') <- q_take q ;; Ok (Some (q', mk_qthread QIdle (b :: q_held t)))
  | QGo, QPut b => Ok (Some (q_put b q, mk_qthread QIdle (q_held t)))
  | _, _ => Ok None
  end.

Inductive qstep : qstate -> outcome qstate -> Prop :=
| qs_ok : forall q l t r a q' t', q_step a q t = Ok (Some (q', t')) -> qstep (mk_qstate q (l ++ t :: r)) (Ok (mk_qstate q' (l ++ t' :: r)))
| qs_ub : forall q l t r a, q_step a q t = Ub -> qstep (mk_qstate q (l ++ t :: r)) Ub.
Inductive qreach (item max n : nat) : outcome qstate -> Prop :=
| qr_init : qreach item max n (Ok (mk_qstate (q_new item max) (repeat (mk_qthread QIdle []) n)))
| qr_step : forall s s', qreach item max n (Ok s) -> qstep s s' -> qreach item max n s'.
