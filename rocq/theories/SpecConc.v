(** What a user expects of a registry shared by threads. *)
From Coq Require Import ZArith List Bool Arith Ascii.
From Verif Require Import Base ModelTypes ModelReducer SpecReducer ModelSeparator SpecSeparator ModelAggregator SpecAggregator
  ModelRegistry SpecRegistry ModelConc.
Import ListNotations.
Local Open Scope Z_scope.

(** * The same calls made one after another *)
Definition set_flag (v : bool) (r : registry) : registry :=
  mk_registry (rg_opt r) (rg_arr r) (rg_dict r) v (rg_initializer r) (rg_next r).
Section Seq.
  Variable ne : nat -> list Z -> list Z.
  Definition a_do (a : aop) (r : registry) : outcome (rgout * registry) :=
    match a with
    | ADo op => rg_do ne op r
    | AFlag v => Ok (RUnit, set_flag v r)
    | AEnableOne s v =>
        Ok (RUnit, match find_obj s (rg_arr r) with Some (pos, g) => rg_set pos (Some (s, g_enable v g)) r | None => r end)
    | AHeld p x c1 c2 =>
        (* the push is made although the pusher's token is gone *)
        match find_obj (rp_obj p) (rg_arr r) with
        | Some (pos, g) => '(o, g1) <- g_call ne (GoPush x (pu_handler (rp_pu p)) c1 c2) g ;; Ok (RRecs (out_handler o), rg_set pos (Some (rp_obj p, g1)) r)
        | None => Ok (RRecs [], r)
        end
    end.
  Fixpoint a_run (r : registry) (ops : list aop) : outcome (list rgout * registry) :=
    match ops with
    | [] => Ok ([], r)
    | a :: t => '(o, r1) <- a_do a r ;; '(os, r2) <- a_run r1 t ;; Ok (o :: os, r2)
    end.
End Seq.

(** The calls that took effect, in that order, and what they answered. *)
Definition effects (evs : list event) : list (aop * rgout) :=
  flat_map (fun e => match e with ELin _ a o => [(a, o)] | _ => [] end) evs.
(** The calls made on aggregator object [s] and their answers. *)
Definition calls (s : nat) (evs : list event) : list (gop * sout) :=
  flat_map (fun e => match e with EObj _ s' g o => if (s' =? s)%nat then [(g, o)] else [] | _ => [] end) evs.
(** What thread [t] does. *)
Definition of (t : nat) (evs : list event) : list event :=
  filter (fun e => match e with EInv t' _ | ELin t' _ _ | ELate t' _ _ | ERet t' _ => (t' =? t)%nat | EObj _ _ _ _ | EGiven _ _ => false end) evs.

(** No thread calls clear() on an aggregator. *)
Definition k_no_clear (k : kop) : Prop := match k with KOp (RgCall _ (GoClear _ _)) => False | _ => True end.
Definition k_no_del (k : kop) : Prop := match k with KOp (RgDel _) => False | _ => True end.
Definition is_del (e : event) : bool := match e with ELin _ (ADo (RgDel _)) _ => true | _ => false end.

(** * How the effects between a call's start and its return relate to the call *)
(** The calls that have one effect: all but these. *)
Definition single (op : rgop) : Prop :=
  match op with RgAddName _ _ _ _ _ | RgPusherName _ _ _ _ | RgPopAll _ _ | RgEnable _ => False | _ => True end.
Section Story.
  Variable t : nat.
  Definition took (a : aop) (o : rgout) (e : event) : Prop := e = ELin t a o \/ e = ELate t a o.
  Definition pushed (p : rpusher) (x : sample) (c1 c2 : Z) (o : rgout) (e : event) : Prop :=
    took (ADo (RgPush p x c1 c2)) o e \/ took (AHeld p x c1 c2) o e.
  (** pop_all visits aggregators one by one and returns what their pop() answers, with their names. *)
  Inductive visits (f : bool) : list event -> list (name * adata) -> Prop :=
  | VNil : visits f [] []
  | VNone body acc id c o1 o2 : visits f body acc -> out_ptr o2 = None ->
      visits f (body ++ [ELin t (ADo (RgCall id (GoSeparate 0 false f c))) o1;
                         ELin t (ADo (RgCall id (if f then GoForcePop else GoPop))) (RCall o2)]) acc
  | VSome body acc id c o1 o2 a n : visits f body acc -> out_ptr o2 = Some a ->
      visits f (body ++ [ELin t (ADo (RgCall id (GoSeparate 0 false f c))) o1;
                         ELin t (ADo (RgCall id (if f then GoForcePop else GoPop))) (RCall o2);
                         ELin t (ADo (RgGetName id)) (RName n)]) (acc ++ [(n, a)]).
  Inductive call_ok : kop -> list event -> rgout -> Prop :=
  | CkSingle op e o : single op -> took (ADo op) o e -> call_ok (KOp op) [e] o
  | CkAddName e n d c1 c2 id ev o : took (ADo (RgCall id (GoAdd (SmRed d) c1 c2))) o ev ->
      call_ok (KOp (RgAddName e n d c1 c2)) [ELin t (ADo (RgCreate e n (ri_ts (rd_info d)))) (RId id); ev] o
  | CkPusherName e n h now id o :
      call_ok (KOp (RgPusherName e n h now)) [ELin t (ADo (RgCreate e n now)) (RId id); ELin t (ADo (RgPusher id h)) o] o
  | CkPopAll f clk body l : visits f body l -> call_ok (KOp (RgPopAll f clk)) body (RNamed l)
  | CkEnable v ss :
      call_ok (KOp (RgEnable v)) (ELin t (AFlag v) RUnit :: map (fun s => ELin t (AEnableOne s v) RUnit) ss) RUnit
  | CkHeld p x c1 c2 e o : took (AHeld p x c1 c2) o e -> call_ok (KOp (RgPush p x c1 c2)) [e] o
  | CkMeterNone p id x c1 c2 ev : pushed p x c1 c2 (RRecs []) ev ->
      call_ok (KMeter p id x c1 c2) [ev] (RNamed [])
  | CkMeter p id x c1 c2 ev recs n : pushed p x c1 c2 (RRecs recs) ev ->
      call_ok (KMeter p id x c1 c2) [ev; ELin t (ADo (RgGetName id)) (RName n)]
        (RNamed (match n with [] => [] | _ => map (fun a => (n, a)) recs end)).
  (** A thread makes calls one after another; the last one may be unfinished. *)
  Inductive story : list event -> Prop :=
  | StNil : story []
  | StOpen k body : Forall (fun e => exists a o, took a o e) body -> story (EInv t k :: body)
  | StCall k body o rest : call_ok k body o -> story rest -> story (EInv t k :: body ++ ERet t o :: rest).
End Story.

(** What the constructor of a registered aggregator is followed by, before anyone can see it. *)
Definition creation (e : cenv) (pre : list gop) : Prop :=
  pre = [] \/ pre = [GoEnable false] \/ exists rd, ce_init e = Some rd /\ pre = [GoAdd (SmRed rd) (ce_c1 e) (ce_c2 e)].
(** Some thread created an aggregator in environment [e] at time [now]. *)
Definition created_in (e : cenv) (now : Z) (evs : list event) : Prop := exists t n x, In (ELin t (ADo (RgCreate e n now)) x) evs.
(** Object [s] exists, in state [g]. *)
Definition exists_obj (c : conc) (s : nat) (g : agg) : Prop :=
  (exists pos, nth_error (rg_arr (k_reg c)) pos = Some (Some (s, g))) \/ m_find Nat.eqb s (k_dead c) = Some g.

(** Thread [t] is inside the call [k] at the end of [evs]. *)
Definition inside (t : nat) (k : kop) (evs : list event) : Prop :=
  exists a b, evs = a ++ EInv t k :: b /\ Forall (fun e => match e with EInv t' _ | ERet t' _ => t' <> t | _ => True end) b.
(** The call [k] can hold the aggregator object [s]: it is made through a pusher of [s], by id or by name. *)
Definition may_hold (s : nat) (k : kop) : Prop :=
  match k with
  | KOp (RgPush p _ _ _) | KMeter p _ _ _ _ => rp_obj p = s
  | KOp (RgCall _ _) | KOp (RgAddName _ _ _ _ _) => True
  | _ => False
  end.
(** When a call may be late.  Some del() took effect after the call was made; or, if it is made through a pusher, another
    thread was inside a call that keeps the object alive when it was made, and some del() had taken effect. *)
Definition late_ok (t : nat) (a : aop) (pre : list event) : Prop :=
  exists pre1 k mid, pre = pre1 ++ EInv t k :: mid /\
    Forall (fun e => match e with EInv t' _ => t' <> t | _ => True end) mid /\
    match a with
    | ADo (RgCall _ _) => existsb is_del mid = true
    | ADo (RgPush p _ _ _) | AHeld p _ _ _ =>
        existsb is_del mid = true \/
        existsb is_del pre1 = true /\ exists t' k', t' <> t /\ inside t' k' pre1 /\ may_hold (rp_obj p) k'
    | _ => False
    end.

(** clear() has been called on the aggregator object [s]. *)
Definition clear_called (s : nat) (evs : list event) : Prop := exists l c, In (GoClear l c) (map fst (calls s evs)).
(** The call [k] is made through a pusher of the aggregator object [s]. *)
Definition through (s : nat) (k : kop) : Prop :=
  match k with KOp (RgPush p _ _ _) | KMeter p _ _ _ _ => rp_obj p = s | _ => False end.

(** The call [k] is made through the pusher [p]. *)
Definition by_pusher (p : rpusher) (k : kop) : Prop := match k with KOp (RgPush p' _ _ _) | KMeter p' _ _ _ _ => p' = p | _ => False end.

(** What the user's handler is given by thread [t]. *)
Definition given_to (t : nat) (evs : list event) : list (list (name * adata)) :=
  flat_map (fun e => match e with EGiven t' l => if (t' =? t)%nat then [l] else [] | _ => [] end) evs.
(** The report [k], which returned [x] to thread [t] after [body], says what its handler was given; other calls have no handler. *)
Definition report_says (t : nat) (k : kop) (body : list event) (x : rgout) : Prop :=
  match k with
  | KMeter _ _ _ _ _ => exists l, x = RNamed l /\ (given_to t body = [l] \/ l = [] /\ given_to t body = [])
  | _ => given_to t body = []
  end.

(** The ids whose aggregators thread [t]'s pop_all visits, and the objects its enable() switches, among [evs]. *)
Definition visited (t : nat) (evs : list event) : list Z :=
  flat_map (fun e => match e with ELin t' (ADo (RgCall id (GoSeparate _ _ _ _))) _ => if (t' =? t)%nat then [id] else [] | _ => [] end) evs.
Definition switched (t : nat) (evs : list event) : list nat :=
  flat_map (fun e => match e with ELin t' (AEnableOne s _) _ => if (t' =? t)%nat then [s] else [] | _ => [] end) evs.
(** Thread [t] starts no call in [evs]. *)
Definition quiet (t : nat) (evs : list event) : Prop := Forall (fun e => match e with EInv t' _ => t' <> t | _ => True end) evs.
(** del(n) takes effect in [evs]. *)
Definition dels (n : name) (evs : list event) : Prop := exists t o, In (ELin t (ADo (RgDel n)) o) evs.

(** The calls on aggregators that a call makes with the caller's own data, or with what the initializer gives it, all satisfy [P]. *)
Definition cenvP (P : gop -> Prop) (e : cenv) : Prop := forall rd, ce_init e = Some rd -> P (GoAdd (SmRed rd) (ce_c1 e) (ce_c2 e)).
Definition kopP (P : gop -> Prop) (k : kop) : Prop :=
  match k with
  | KOp (RgCall _ g) => P g
  | KOp (RgCreate e _ _) | KOp (RgPusherName e _ _ _) => cenvP P e
  | KOp (RgAddName e _ d c1 c2) => cenvP P e /\ P (GoAdd (SmRed d) c1 c2)
  | KOp (RgPush _ x c1 c2) | KMeter _ _ x c1 c2 => forall h, P (GoPush x h c1 c2)
  | KOp (RgPopAll f _) => f = true -> P GoForcePop
  | _ => True
  end.

(** The registered objects. *)
Definition objects (l : list (option obj)) : list nat := flat_map (fun x => match x with Some (s, _) => [s] | None => [] end) l.

(** * A call nobody interferes with *)
(** Between the start and the return of thread [t]'s call, in [body], no call of another thread takes effect; and [t]'s own call did not
    come too late: its aggregator is not a deleted one, nor its pusher one that clear() has cut off (C64 and C106 say when that can be). *)
Definition alone (t : nat) (body : list event) : Prop :=
  Forall (fun e => match e with
                   | ELin t' a _ => t' = t /\ match a with AHeld _ _ _ _ => False | _ => True end
                   | ELate t' _ _ => t' <> t
                   | _ => True
                   end) body.
(** The call [k] made on a registry that nobody else uses: it answers [x] and leaves [r']. *)
Definition does (ne : nat -> list Z -> list Z) (k : kop) (r : registry) (x : rgout) (r' : registry) : Prop :=
  match k with
  | KOp op => rg_do ne op r = Ok (x, r')
  | KMeter p id s c1 c2 => exists recs, rg_do ne (RgPush p s c1 c2) r = Ok (RRecs recs, r') /\ x = RNamed (w_deliver id recs r')
  end.
