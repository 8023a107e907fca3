(** wrtstat/aggregator/aggregator_registry.{hpp,cpp} and wrtstat.cpp used by several threads.  The shared state is the
    sequential registry of ModelRegistry; a call is cut into the critical sections it consists of:
    - a section under the registry's lock, exclusive (std::lock_guard) or shared (read_lock);
    - one call on an aggregator, which runs under that aggregator's own mutex (aggregator_mt, see C48).
    Threads interleave between sections.  pop_all and enable keep the registry's lock over all their sections; a push
    whose handler was made by wrtstat::make_handler_(id) keeps the aggregator's mutex while the handler asks for the
    name.  The locks themselves are modelled in ModelMt, ModelRw and ModelLocks; here they only restrict the schedule. *)
From Coq Require Import ZArith List Bool Arith Ascii.
From Verif Require Import Base ModelTypes ModelReducer SpecReducer ModelSeparator SpecSeparator ModelAggregator SpecAggregator
  ModelRegistry SpecRegistry.
Import ListNotations.
Local Open Scope Z_scope.

(** A call made by a thread: a call on the registry, or a meter's report through a pusher whose handler is
    wrtstat::make_handler_(id), wrtstat.cpp:321-342. *)
Inductive kop :=
| KOp (op : rgop)
| KMeter (p : rpusher) (id : Z) (x : sample) (c1 c2 : Z).

(** What happens in an execution.  [ELin] is the moment a call (or one of the steps pop_all and enable consist of)
    takes effect on the registered aggregators; [ELate] is the moment a call is made on an aggregator that was deleted
    after the caller got hold of it; [EObj] is a call on the aggregator object [s]. *)
Inductive aop :=
| ADo (op : rgop)
| AFlag (v : bool)                     (* enable(v), first part: new aggregators will be created enabled or not *)
| AEnableOne (s : nat) (v : bool)      (* enable(v), the part that concerns aggregator object s *)
| AHeld (p : rpusher) (x : sample) (c1 c2 : Z).  (* a pusher that got hold of the token before clear() dropped it pushes *)
Inductive event :=
| EInv (t : nat) (k : kop)
| ELin (t : nat) (a : aop) (o : rgout)
| ELate (t : nat) (a : aop) (o : rgout)
| EObj (t : nat) (s : nat) (op : gop) (o : sout)
| EGiven (t : nat) (l : list (name * adata))  (* the handler made by make_handler_ has given these records to the user's handler and returns *)
| ERet (t : nat) (o : rgout).

(** Where a thread is. *)
Inductive pc :=
| PIdle
| PGot (id : Z) (s : nat) (op : gop)                          (* get_aggregator(id) answered object s *)
| PCreated (id : Z) (d : rdata) (c1 c2 : Z)                   (* add(name, d): create_aggregator answered id *)
| PMade (id : Z) (h : bool)                                   (* create_*_pusher(name): create_aggregator answered id *)
| PLocked (p : rpusher) (x : sample) (c1 c2 : Z) (dest : option Z) (* a pusher: both weak_ptr are locked *)
| PDeliver (s : nat) (id : Z) (recs : list adata)             (* inside push on s: the handler is running *)
| PLeave (token : bool) (s : nat) (o : rgout)                 (* the mutex of s is free again, the shared_ptr (and the token) not yet *)
| PPop (force : bool) (clk : name -> Z) (is : list nat) (acc : list (name * adata))  (* pop_: positions to visit *)
| PPopped (force : bool) (clk : name -> Z) (is : list nat) (acc : list (name * adata)) (id : Z) (s : nat) (* separate done *)
| PEnable (v : bool) (is : list nat).                         (* enable: positions to visit *)

(** [k_dead]: objects that left the array; they live on while some thread holds a shared_ptr to them. *)
Record conc := mk_conc { k_reg : registry; k_dead : list obj; k_thr : list pc }.
Definition k_new (o : rgopts) (threads : nat) : conc := mk_conc (rg_new o) [] (repeat PIdle threads).

(** The registry's lock: shared by pop_all, exclusive for enable, while they run (aggregator_registry.cpp:47-62, 242-252);
    every other section takes and releases it in one step. *)
Definition reading (p : pc) : bool := match p with PPop _ _ _ _ | PPopped _ _ _ _ _ _ => true | _ => false end.
Definition writing (p : pc) : bool := match p with PEnable _ _ => true | _ => false end.
Definition can_read (c : conc) : bool := negb (existsb writing (k_thr c)).
Definition can_write (c : conc) : bool := negb (existsb (fun p => reading p || writing p) (k_thr c)).
(** The mutex of object [s] is held while a handler runs. *)
Definition delivering (s : nat) (p : pc) : bool := match p with PDeliver s' _ _ => (s' =? s)%nat | _ => false end.
Definition can_call (s : nat) (c : conc) : bool := negb (existsb (delivering s) (k_thr c)).
(** Some thread holds a shared_ptr to [s]. *)
Definition holds (s : nat) (p : pc) : bool :=
  match p with
  | PGot _ s' _ | PDeliver s' _ _ | PPopped _ _ _ _ _ s' | PLeave _ s' _ => (s' =? s)%nat
  | PLocked p _ _ _ _ => (rp_obj p =? s)%nat
  | _ => false
  end.

(** Some thread holds a strong reference to the token of [s]: [id] of basic_aggregator.hpp:107, 123, 139. *)
Definition holds_token (s : nat) (p : pc) : bool :=
  match p with
  | PDeliver s' _ _ => (s' =? s)%nat
  | PLeave b s' _ => b && (s' =? s)%nat
  | PLocked p _ _ _ _ => (rp_obj p =? s)%nat
  | _ => false
  end.
(** The token of the aggregator [s], whose state is [g], exists as long as there is a strong reference: the member _id or a local [id]. *)
Definition token (s : nat) (g : agg) (c : conc) : bool := g_id g || existsb (holds_token s) (k_thr c).

Definition with_reg (r : registry) (c : conc) : conc := mk_conc r (k_dead c) (k_thr c).
Definition with_pc (t : nat) (p : pc) (c : conc) : conc := mk_conc (k_reg c) (k_dead c) (set_nth t p (k_thr c)).

(** The state of a live object, and whether it is still registered: std::weak_ptr::lock. *)
Definition k_find (s : nat) (c : conc) : option agg :=
  match find_obj s (rg_arr (k_reg c)) with
  | Some (_, g) => Some g
  | None => if existsb (holds s) (k_thr c) then m_find Nat.eqb s (k_dead c) else None
  end.

(** clear() was called on [s]: _id.reset(), basic_aggregator.cpp:188. *)
Definition cleared (s : nat) (c : conc) : bool := match k_find s c with Some g => negb (g_id g) | None => false end.

Section Step.
  Variable ne : nat -> list Z -> list Z.

  (** A call on object [s] through a shared_ptr; also says whether [s] is still registered. *)
  Definition k_call (s : nat) (op : gop) (c : conc) : outcome (sout * bool * conc) :=
    match find_obj s (rg_arr (k_reg c)) with
    | Some (pos, g) => '(o, g') <- g_call ne op g ;; Ok (o, true, with_reg (rg_set pos (Some (s, g')) (k_reg c)) c)
    | None =>
        match m_find Nat.eqb s (k_dead c) with
        | Some g => '(o, g') <- g_call ne op g ;; Ok (o, false, mk_conc (k_reg c) ((s, g') :: m_erase Nat.eqb s (k_dead c)) (k_thr c))
        | None => Ub (* dangling *)
        end
    end.

  (** A call that is one section: run it and return. *)
  Definition k_one (t : nat) (k : kop) (op : rgop) (c : conc) : outcome (list event * conc) :=
    '(o, r) <- rg_do ne op (k_reg c) ;; Ok ([EInv t k; ELin t (ADo op) o; ERet t o], with_reg r c).

  (** The weak_ptrs of a pusher, basic_aggregator.hpp:105-107 (121-123, 137-139).  The token can outlive clear() while another
      thread is inside a pusher; a pusher made when there is no token has none. *)
  Definition k_lock (t : nat) (k : kop) (p : rpusher) (x : sample) (c1 c2 : Z) (dest : option Z) (c : conc) :
      list event * conc :=
    let nothing := ([EInv t k; ELin t (ADo (RgPush p x c1 c2)) (RRecs []); ERet t (match dest with None => RRecs [] | _ => RNamed [] end)], c) in
    match k_find (rp_obj p) c with
    | Some g => if pu_id (rp_pu p) && token (rp_obj p) g c then ([EInv t k], with_pc t (PLocked p x c1 c2 dest) c) else nothing
    | None => nothing
    end.

  Definition stay (c : conc) : outcome (list event * conc) := Ok ([], c).
  Definition guard (b : bool) (c : conc) (next : outcome (list event * conc)) : outcome (list event * conc) :=
    if b then next else stay c.

  (** The first section of a call. *)
  Definition k_start (t : nat) (k : kop) (c : conc) : outcome (list event * conc) :=
    match k with
    | KOp op =>
        match op with
        | RgCreate _ _ _ | RgSetInit _ => guard (can_write c) c (k_one t k op c)
        | RgDel n =>
            (* the array's reference is dropped, aggregator_registry.cpp:254-264 *)
            guard (can_write c) c
              (p <- rg_get (d_get_id n (rg_dict (k_reg c))) (k_reg c) ;;
               '(ev, c1) <- k_one t k op c ;;
               Ok (ev, mk_conc (k_reg c1) (match p with Some (_, ob) => ob :: k_dead c1 | None => k_dead c1 end) (k_thr c1)))
        | RgGetName _ | RgPusher _ _ => guard (can_read c) c (k_one t k op c)
        | RgCall id g =>
            guard (can_read c) c
              (p <- rg_get id (k_reg c) ;;
               match p with
               | None => k_one t k op c
               | Some (_, (s, _)) => Ok ([EInv t k], with_pc t (PGot id s g) c)
               end)
        | RgAddName e n d c1 c2 =>
            guard (can_write c) c
              ('(id, r) <- rg_create ne e n (ri_ts (rd_info d)) (k_reg c) ;;
               Ok ([EInv t k; ELin t (ADo (RgCreate e n (ri_ts (rd_info d)))) (RId id)], with_pc t (PCreated id d c1 c2) (with_reg r c)))
        | RgPusherName e n h now =>
            guard (can_write c) c
              ('(id, r) <- rg_create ne e n now (k_reg c) ;;
               Ok ([EInv t k; ELin t (ADo (RgCreate e n now)) (RId id)], with_pc t (PMade id h) (with_reg r c)))
        | RgPush p x c1 c2 => Ok (k_lock t k p x c1 c2 None c)
        | RgPopAll f clk =>
            guard (can_read c) c (Ok ([EInv t k], with_pc t (PPop f clk (seq 0 (length (rg_arr (k_reg c)))) []) c))
        | RgEnable v =>
            let r := k_reg c in
            guard (can_write c) c
              (Ok ([EInv t k; ELin t (AFlag v) RUnit],
                   with_pc t (PEnable v (seq 0 (length (rg_arr r))))
                     (with_reg (mk_registry (rg_opt r) (rg_arr r) (rg_dict r) v (rg_initializer r) (rg_next r)) c)))
        end
    | KMeter p id x c1 c2 => Ok (k_lock t k p x c1 c2 (Some id) c)
    end.

  (** The moment a call on [s] takes effect on the registered aggregators, if [s] is one of them. *)
  Definition lin (reg : bool) (t s : nat) (g : gop) (o : sout) (a : aop) (r : rgout) : list event :=
    [EObj t s g o; if reg then ELin t a r else ELate t a r].

  (** The next section of the call thread [t] is in. *)
  Definition k_next (t : nat) (p : pc) (c : conc) : outcome (list event * conc) :=
    match p with
    | PIdle => stay c
    | PGot id s g =>
        guard (can_call s c) c
          ('(o, reg, c1) <- k_call s g c ;;
           Ok (lin reg t s g o (ADo (RgCall id g)) (RCall o), with_pc t (PLeave false s (RCall o)) c1))
    | PCreated id d c1 c2 =>
        guard (can_read c) c
          (p <- rg_get id (k_reg c) ;;
           let g := GoAdd (SmRed d) c1 c2 in
           match p with
           | None => Ok ([ELin t (ADo (RgCall id g)) (RCall (no_out g)); ERet t (RCall (no_out g))], with_pc t PIdle c)
           | Some (_, (s, _)) => Ok ([], with_pc t (PGot id s g) c)
           end)
    | PMade id h =>
        guard (can_read c) c
          (p <- rg_pusher id h (k_reg c) ;;
           Ok ([ELin t (ADo (RgPusher id h)) (RPusher p); ERet t (RPusher p)], with_pc t PIdle c))
    | PLocked p x c1 c2 dest =>
        let s := rp_obj p in
        let g := GoPush x (pu_handler (rp_pu p)) c1 c2 in
        guard (can_call s c) c
          ('(o, reg, k1) <- k_call s g c ;;
           let recs := out_handler o in
           let ev := lin reg t s g o (if cleared s c then AHeld p x c1 c2 else ADo (RgPush p x c1 c2)) (RRecs recs) in
           Ok (ev, with_pc t match dest, recs with
                             | None, _ => PLeave true s (RRecs recs)
                             | Some _, [] => PLeave true s (RNamed [])
                             | Some id, _ => PDeliver s id recs
                             end k1))
    | PDeliver s id recs =>
        guard (can_read c) c
          (Ok ([ELin t (ADo (RgGetName id)) (RName (rg_get_name id (k_reg c))); EGiven t (w_deliver id recs (k_reg c))],
               with_pc t (PLeave true s (RNamed (w_deliver id recs (k_reg c)))) c))
    | PLeave _ _ o => Ok ([ERet t o], with_pc t PIdle c)
    | PPop f clk is acc =>
        match is with
        | [] => Ok ([ERet t (RNamed acc)], with_pc t PIdle c)
        | i :: is' =>
            id <- d_pos2id i (rg_dict (k_reg c)) ;;
            p <- rg_get id (k_reg c) ;;
            match p with
            | None => Ok ([], with_pc t (PPop f clk is' acc) c)
            | Some (_, (s, _)) =>
                let g := GoSeparate 0 false f (clk (rg_get_name id (k_reg c))) in
                guard (can_call s c) c
                  ('(o, reg, c1) <- k_call s g c ;;
                   Ok (lin reg t s g o (ADo (RgCall id g)) (RCall o), with_pc t (PPopped f clk is' acc id s) c1))
            end
        end
    | PPopped f clk is acc id s =>
        let g := if f then GoForcePop else GoPop in
        guard (can_call s c) c
          ('(o, reg, c1) <- k_call s g c ;;
           let n := rg_get_name id (k_reg c) in
           let '(ev, l) := match out_ptr o with Some a => ([ELin t (ADo (RgGetName id)) (RName n)], [(n, a)]) | None => ([], []) end in
           Ok (lin reg t s g o (ADo (RgCall id g)) (RCall o) ++ ev, with_pc t (PPop f clk is (acc ++ l)) c1))
    | PEnable v is =>
        match is with
        | [] => Ok ([ERet t RUnit], with_pc t PIdle c)
        | i :: is' =>
            match nth_error (rg_arr (k_reg c)) i with
            | Some (Some (s, _)) =>
                let g := GoEnable v in
                guard (can_call s c) c
                  ('(o, reg, c1) <- k_call s g c ;;
                   Ok (lin reg t s g o (AEnableOne s v) RUnit, with_pc t (PEnable v is') c1))
            | _ => Ok ([], with_pc t (PEnable v is') c)
            end
        end
    end.

  (** Thread [t] is scheduled.  If it is idle it starts the call [k], otherwise it goes on with the call it is in.  A
      thread that has to wait for a lock does nothing. *)
  Definition k_step (t : nat) (k : kop) (c : conc) : outcome (list event * conc) :=
    match nth_error (k_thr c) t with
    | None => stay c
    | Some PIdle => k_start t k c
    | Some p => k_next t p c
    end.
  Fixpoint k_run (c : conc) (sched : list (nat * kop)) : outcome (list event * conc) :=
    match sched with
    | [] => Ok ([], c)
    | (t, k) :: rest => '(ev, c1) <- k_step t k c ;; '(evs, c2) <- k_run c1 rest ;; Ok (ev ++ evs, c2)
    end.
End Step.
