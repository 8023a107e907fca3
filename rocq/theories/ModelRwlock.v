(** wrtstat/system/rwlock.hpp: class rwlock as a transition system of any number of threads.

    One step per statement.  _readers and _writer are sequentially consistent atomics; they are plain integers here (an
    overflow of int needs 2^31 read locks at once).  The inner mutex is a flag that is set by one thread at a time;
    condition_variable_any::wait releases it and starts waiting in one step, notify_all wakes all waiting threads, and a
    waiting thread may wake up by itself at any time.  A woken thread has to lock the mutex again and tests the condition
    again. *)
From Coq Require Import ZArith List Bool Arith.
Import ListNotations.
Local Open Scope Z_scope.

(** Where a thread is *)
Inductive pc :=
| Idle                                                 (* outside the lock's functions *)
| LAcq | LTest | LInc | LChk1 | LChk2 | LRel | LWait   (* lock() *)
| UAcq | UDec | UChk | UNotW | UNotR | URel            (* unlock() *)
| RAcq | RTest | RChk | RInc | RRel | RWait            (* lock_r() *)
| SAcq | SChk | SDec | STest | SNot | SRel             (* unlock_r() *)
| Dead.                                                (* abort() *)

(** A thread, with what its caller holds: [hw]: a lock() has returned and unlock() has not been called yet; [hr]: number of
    lock_r() that have returned minus number of unlock_r() called. *)
Record thread := mk_thread { at_ : pc; hw : bool; hr : nat }.
(** _mutex (locked or not), _readers, _writer, rwlock.hpp:20-24 *)
Record shared := mk_shared { sm : bool; rd : Z; wr : Z }.
Record state := mk_state { sh : shared; ts : list thread }.

Inductive call := CLock | CUnlock | CLockR | CUnlockR.
(** What happens: a thread calls a function, runs one statement, or wakes up without having been notified. *)
Inductive action := Call (c : call) | Run | Spurious.
Inductive note := NoNote | NoteW | NoteR.

(** Callers use the lock in a balanced way: lock() holding nothing, lock_r() not holding it for writing, unlock functions
    only for what they hold. *)
Definition may (c : call) (t : thread) : bool :=
  match c with
  | CLock => negb (hw t) && (hr t =? 0)%nat
  | CUnlock => hw t
  | CLockR => negb (hw t)
  | CUnlockR => (0 <? hr t)%nat
  end.
Definition enter (c : call) (t : thread) : thread :=
  match c with
  | CLock => mk_thread LAcq (hw t) (hr t)
  | CUnlock => mk_thread UAcq false (hr t)
  | CLockR => mk_thread RAcq (hw t) (hr t)
  | CUnlockR => mk_thread SAcq (hw t) (pred (hr t))
  end.

Definition acquire (s : shared) (t : thread) (p : pc) : option (shared * thread * note) :=
  if sm s then None else Some (mk_shared true (rd s) (wr s), mk_thread p (hw t) (hr t), NoNote).
Definition goto (s : shared) (t : thread) (p : pc) : option (shared * thread * note) :=
  Some (s, mk_thread p (hw t) (hr t), NoNote).
Definition release (s : shared) (t : thread) (p : pc) : option (shared * thread * note) :=
  Some (mk_shared false (rd s) (wr s), mk_thread p (hw t) (hr t), NoNote).

(** One step of a thread *)
Definition tstep (s : shared) (t : thread) (a : action) : option (shared * thread * note) :=
  match a, at_ t with
  | Call c, Idle => if may c t then Some (s, enter c t, NoNote) else None
  | Call _, _ => None
  | Spurious, LWait => goto s t LAcq
  | Spurious, RWait => goto s t RAcq
  | Spurious, _ => None
  (* lock(), rwlock.hpp:46-55 *)
  | Run, LAcq => acquire s t LTest                                              (* 48 *)
  | Run, LTest => if (wr s =? 0) && (rd s =? 0) then goto s t LInc else release s t LWait   (* 49 *)
  | Run, LInc => Some (mk_shared (sm s) (rd s) (wr s + 1), mk_thread LChk1 (hw t) (hr t), NoNote)   (* 50 *)
  | Run, LChk1 => if negb (wr s =? 1) then goto s t Dead else goto s t LChk2    (* 51-52 *)
  | Run, LChk2 => if negb (rd s =? 0) then goto s t Dead else goto s t LRel     (* 53-54 *)
  | Run, LRel => Some (mk_shared false (rd s) (wr s), mk_thread Idle true (hr t), NoNote)   (* 55 *)
  (* unlock(), rwlock.hpp:57-65 *)
  | Run, UAcq => acquire s t UDec                                               (* 59 *)
  | Run, UDec => Some (mk_shared (sm s) (rd s) (wr s - 1), mk_thread UChk (hw t) (hr t), NoNote)    (* 60 *)
  | Run, UChk => if negb (wr s =? 0) then goto s t Dead else goto s t UNotW     (* 61-62 *)
  | Run, UNotW => Some (s, mk_thread UNotR (hw t) (hr t), NoteW)                (* 63 *)
  | Run, UNotR => Some (s, mk_thread URel (hw t) (hr t), NoteR)                 (* 64 *)
  | Run, URel => release s t Idle                                               (* 65 *)
  (* lock_r(), rwlock.hpp:67-74 *)
  | Run, RAcq => acquire s t RTest                                              (* 69 *)
  | Run, RTest => if wr s =? 0 then goto s t RChk else release s t RWait        (* 70 *)
  | Run, RChk => if negb (wr s =? 0) then goto s t Dead else goto s t RInc      (* 71-72 *)
  | Run, RInc => Some (mk_shared (sm s) (rd s + 1) (wr s), mk_thread RRel (hw t) (hr t), NoNote)    (* 73 *)
  | Run, RRel => Some (mk_shared false (rd s) (wr s), mk_thread Idle (hw t) (S (hr t)), NoNote)     (* 74 *)
  (* unlock_r(), rwlock.hpp:76-84 *)
  | Run, SAcq => acquire s t SChk                                               (* 78 *)
  | Run, SChk => if rd s =? 0 then goto s t Dead else goto s t SDec             (* 79-80 *)
  | Run, SDec => Some (mk_shared (sm s) (rd s - 1) (wr s), mk_thread STest (hw t) (hr t), NoNote)   (* 81 *)
  | Run, STest => if rd s =? 0 then goto s t SNot else goto s t SRel            (* 82 *)
  | Run, SNot => Some (s, mk_thread SRel (hw t) (hr t), NoteW)                  (* 83 *)
  | Run, SRel => release s t Idle                                               (* 84 *)
  | Run, Idle => None
  | Run, LWait => None
  | Run, RWait => None
  | Run, Dead => None
  end.

(** notify_all *)
Definition wake (n : note) (t : thread) : thread :=
  match n, at_ t with
  | NoteW, LWait => mk_thread LAcq (hw t) (hr t)
  | NoteR, RWait => mk_thread RAcq (hw t) (hr t)
  | _, _ => t
  end.

(** One step of the whole system *)
Inductive step : action -> state -> state -> Prop :=
| step_intro : forall s l t r a s' t' n, tstep s t a = Some (s', t', n) ->
    step a (mk_state s (l ++ t :: r)) (mk_state s' (map (wake n) (l ++ t' :: r))).

(** n threads, rwlock::rwlock(), rwlock.hpp:34-40 *)
Definition init (n : nat) : state := mk_state (mk_shared false 0 0) (repeat (mk_thread Idle false 0) n).

Inductive steps : list action -> state -> state -> Prop :=
| steps_nil : forall s, steps [] s s
| steps_cons : forall a s s1 l s2, step a s s1 -> steps l s1 s2 -> steps (a :: l) s s2.

Definition reachable (s : state) : Prop := exists n l, steps l (init n) s.
