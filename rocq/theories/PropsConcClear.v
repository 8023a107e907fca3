(** Property C106: clear() of an aggregator that threads share (wrtstat/aggregator/basic_aggregator.hpp, aggregator_registry.cpp). *)
From Coq Require Import ZArith List Bool Lia Arith Ascii.
From Verif Require Import Base SortFacts ModelTypes ModelReducer SpecReducer ModelSeparator SpecSeparator ModelAggregator SpecAggregator
  ModelRegistry SpecRegistry RegFinal ModelConc SpecConc ConcClear PropsReducer PropsSeparator PropsAggregator PropsRegistry PropsConc.
Import ListNotations.
Local Open Scope Z_scope.

(** C106 *)
(** Full claim: once clear() of an aggregator has been called, nothing that is pushed through one of the pushers made
    for it is recorded or delivered.  Proved: that is so for a push made when no other thread is inside a call through a
    pusher of that aggregator: the push returns at once, nothing was recorded, nothing is delivered. *)
Theorem C106_after_clear_partial : forall ne o threads sched evs c, k_run ne (k_new o threads) sched = Ok (evs, c) ->
  forall pre t k s body x post, evs = pre ++ EInv t k :: body ++ ERet t x :: post -> quiet t body ->
  through s k -> clear_called s pre -> (forall t' k', inside t' k' pre -> through s k' -> t' = t) ->
  (x = RRecs [] \/ x = RNamed []) /\ (forall s' g a, ~ In (EObj t s' g a) body).
Proof.
  intros ne o threads sched evs c E pre t k s body x post EQ Q TK CC NO.
  destruct (after_clear ne o threads sched evs c E _ _ _ _ _ EQ TK CC NO) as (p & y & c1 & c2 & z & rest & _ & R & Z).
  destruct body as [|b body]; [discriminate|]. simpl in R. injection R as -> R.
  destruct body as [|b body]; simpl in R; [injection R as -> _; split; auto; intros s' g a [H|[]]; discriminate|].
  injection R as -> R. exfalso.
  pose proof (C60_completed ne o threads sched evs c E pre t k _ x post EQ Q) as CK. unfold of in CK. simpl in CK. rewrite Nat.eqb_refl in CK.
  destruct k as [[]|]; try contradiction; inversion CK; discriminate.
Qed.
Print Assumptions C106_after_clear_partial.

(** So, conversely, a push that reaches the aggregator after clear() was made while another thread was inside a call
    through a pusher of the same aggregator. *)
Theorem C106_push_partial : forall ne o threads sched evs c, k_run ne (k_new o threads) sched = Ok (evs, c) ->
  forall pre t k mid s g a post, evs = pre ++ EInv t k :: mid ++ EObj t s g a :: post -> quiet t mid ->
  through s k -> ~ clear_called s pre \/ exists t' k', t' <> t /\ inside t' k' pre /\ through s k'.
Proof. exact push_fresh. Qed.
Print Assumptions C106_push_partial.

(** And if at some moment after clear() nobody is inside a call through a pusher of that aggregator, no such call ever
    reaches it again. *)
Theorem C106_forever_partial : forall ne o threads sched evs c, k_run ne (k_new o threads) sched = Ok (evs, c) ->
  forall pre s rest, evs = pre ++ rest -> clear_called s pre -> (forall t k, inside t k pre -> ~ through s k) ->
  forall mid t g a post k, rest = mid ++ EObj t s g a :: post -> inside t k (pre ++ mid) -> ~ through s k.
Proof. exact push_never. Qed.
Print Assumptions C106_forever_partial.

(** A pusher made after clear() never reaches the aggregator, whatever else goes on. *)
Theorem C106_made_after : forall ne o threads sched evs c, k_run ne (k_new o threads) sched = Ok (evs, c) ->
  forall pre t0 id h p mid t g a post k,
  evs = pre ++ ELin t0 (ADo (RgPusher id h)) (RPusher (Some p)) :: mid ++ EObj t (rp_obj p) g a :: post -> clear_called (rp_obj p) pre ->
  inside t k (pre ++ ELin t0 (ADo (RgPusher id h)) (RPusher (Some p)) :: mid) -> ~ by_pusher p k.
Proof.
  intros ne o threads sched evs c E pre t0 id h p mid t g a post k EQ CC IN BY. pose proof (pusher_dead ne o threads sched evs c E _ _ _ _ _ _ EQ CC) as D.
  rewrite (pusher_token ne o threads sched evs c E (pre ++ ELin t0 (ADo (RgPusher id h)) (RPusher (Some p)) :: mid) t k p g a post) in D; auto; [discriminate|].
  now rewrite <- app_assoc.
Qed.
Print Assumptions C106_made_after.

(** Effects that only exist because of that ([AHeld]: a push that is recorded although clear() was called, C60) follow a
    clear() of that aggregator; without clear() the order of C60 consists of ordinary calls. *)
Theorem C106_held : forall ne o threads sched evs c, k_run ne (k_new o threads) sched = Ok (evs, c) ->
  forall pre e post t p x c1 c2 r, evs = pre ++ e :: post -> took t (AHeld p x c1 c2) r e -> clear_called (rp_obj p) pre.
Proof. exact held_after. Qed.
Print Assumptions C106_held.
Theorem C106_no_clear : forall ne o threads sched evs c,
  Forall (fun q => k_no_clear (snd q)) sched -> k_run ne (k_new o threads) sched = Ok (evs, c) ->
  forall p x c1 c2 r, ~ In (AHeld p x c1 c2, r) (effects evs) /\ forall t, ~ In (ELate t (AHeld p x c1 c2) r) evs.
Proof.
  intros ne o threads sched evs c F E p x c1 c2 r. split; [|intros t IN; apply (no_clear_held ne o threads sched evs c F E _ t p x c1 c2 r IN); right; reflexivity].
  intros IN. unfold effects in IN. apply in_flat_map in IN. destruct IN as (e & IN & H).
  destruct e as [| |t a y| | |]; try contradiction; destruct H as [H|[]]. injection H as -> ->.
  apply (no_clear_held ne o threads sched evs c F E _ t p x c1 c2 r IN). left. reflexivity.
Qed.
Print Assumptions C106_no_clear.

(** Thread 0 is inside a push into a; thread 1 clears a and, after clear() returned, pushes through its pusher of a: the
    sample is recorded, and a later one through the same pusher, when thread 0 is through, is not. *)
Definition cx_sched : list (nat * kop) := kx_start ++
  [kx 0 (RgPush kx_pa (SmScalar 103 7 1) 0 0); kx 1 (RgCall 8 (GoClear 108 0)); go 1; go 1;
   kx 1 (RgPush kx_pa (SmScalar 114 8 1) 0 0); go 1; go 1; go 0; go 0; kx 1 (RgPush kx_pa (SmScalar 115 8 1) 0 0)].
Definition cx_push (ts : Z) : kop := KOp (RgPush kx_pa (SmScalar ts 8 1) 0 0).
Theorem C106_push_refuted : kx_ran cx_sched = true /\
  exists pre x mid a post, kx_evs cx_sched = pre ++ ERet 1 x :: EInv 1 (cx_push 114) :: mid ++ EObj 1 0 (GoPush (SmScalar 114 8 1) true 0 0) a :: post /\
    clear_called 0 pre /\ quiet 1 mid /\ through 0 (cx_push 114) /\ out_bool a = Some true.
Proof.
  split; [vm_compute; reflexivity|].
  exists (firstn 16 (kx_evs cx_sched)). eexists _, [], _, (skipn 19 (kx_evs cx_sched)).
  split; [vm_compute; reflexivity|]. split; [exists 108, 0; vm_compute; auto|]. split; [constructor|]. split; reflexivity.
Qed.
Print Assumptions C106_push_refuted.

(** A way to see who is inside a call. *)
Fixpoint opened (t : nat) (evs : list event) (b : bool) : bool :=
  match evs with
  | [] => b
  | EInv t' _ :: r => opened t r (if (t' =? t)%nat then true else b)
  | ERet t' _ :: r => opened t r (if (t' =? t)%nat then false else b)
  | _ :: r => opened t r b
  end.
Lemma inside_opened t k evs b : inside t k evs -> opened t evs b = true.
Proof.
  intros (x & y & -> & F). revert b. induction x as [|e x IH]; intros b; simpl.
  - rewrite Nat.eqb_refl. revert F. generalize y. induction y0 as [|e y0 IH]; intros F; auto. inversion F; subst. simpl. destruct e; auto; apply Nat.eqb_neq in H1; rewrite H1; auto.
  - destruct e; apply IH.
Qed.

(** Thread 1 then makes a new pusher and pushes through it; thread 0 adds a value by id. *)
Definition cx_after : list (nat * kop) := cx_sched ++
  [kx 1 (RgPusher 8 true); kx 1 (RgPush (mk_rpusher 0 (mk_pusher false true)) (SmScalar 116 8 1) 0 0);
   kx 0 (RgCall 8 (GoAdd (SmScalar 117 4 1) 0 0)); go 0; go 0].
(** The last push of the same schedule meets the hypotheses of C106_after_clear_partial, the one before those of
    C106_push_partial and C106_held; kx_mix (C60) those of C106_no_clear. *)
Example C106_witness : k_run ne_rev (k_new rx_o 2) cx_sched = Ok (kx_evs cx_sched, kx_end cx_sched) /\
  (exists pre body x, kx_evs cx_sched = pre ++ EInv 1 (cx_push 115) :: body ++ ERet 1 x :: [] /\ quiet 1 body /\ clear_called 0 pre /\
    forall t' k', inside t' k' pre -> through 0 k' -> t' = 1%nat) /\
  (exists pre rest mid a post, kx_evs cx_after = pre ++ rest /\ clear_called 0 pre /\ (forall t k, inside t k pre -> ~ through 0 k) /\
    rest = mid ++ EObj 0 0 (GoAdd (SmScalar 117 4 1) 0 0) a :: post /\ inside 0 (KOp (RgCall 8 (GoAdd (SmScalar 117 4 1) 0 0))) (pre ++ mid)) /\
  (exists pre p mid a post, kx_evs cx_after = pre ++ ELin 1 (ADo (RgPusher 8 true)) (RPusher (Some p)) :: mid ++ EObj 0 (rp_obj p) (GoAdd (SmScalar 117 4 1) 0 0) a :: post /\
    clear_called (rp_obj p) pre /\ In (EInv 1 (KOp (RgPush p (SmScalar 116 8 1) 0 0))) mid) /\
  (exists pre e r post, kx_evs cx_sched = pre ++ e :: post /\ took 1 (AHeld kx_pa (SmScalar 114 8 1) 0 0) r e) /\
  Forall (fun q => k_no_clear (snd q)) kx_mix.
Proof.
  split; [apply kx_ok; vm_compute; reflexivity|]. split; [|split; [|split; [|split; [|repeat constructor]]]].
  - exists (firstn 24 (kx_evs cx_sched)), (firstn 1 (skipn 25 (kx_evs cx_sched))), (RRecs []).
    split; [vm_compute; reflexivity|]. split; [vm_compute; repeat constructor|]. split; [exists 108, 0; vm_compute; auto|].
    intros [|[|t']] k' H _; auto; apply (inside_opened _ _ _ false) in H; exfalso; revert H; clear; vm_compute; discriminate.
  - exists (kx_evs cx_sched). eexists (skipn 27 (kx_evs cx_after)), (firstn 7 (skipn 27 (kx_evs cx_after))), _, (skipn 35 (kx_evs cx_after)).
    split; [vm_compute; reflexivity|]. split; [exists 108, 0; vm_compute; auto|].
    split; [intros [|[|t']] k' H _; apply (inside_opened _ _ _ false) in H; revert H; clear; vm_compute; discriminate|].
    split; [vm_compute; reflexivity|]. exists (kx_evs cx_sched ++ firstn 6 (skipn 27 (kx_evs cx_after))), []. split; [vm_compute; reflexivity|constructor].
  - exists (kx_evs cx_sched ++ firstn 1 (skipn 27 (kx_evs cx_after))), (mk_rpusher 0 (mk_pusher false true)), (firstn 5 (skipn 29 (kx_evs cx_after))). eexists _, (skipn 35 (kx_evs cx_after)).
    split; [vm_compute; reflexivity|]. split; [exists 108, 0; vm_compute; auto|]. vm_compute; auto.
  - exists (firstn 19 (kx_evs cx_sched)). eexists _, _, (skipn 20 (kx_evs cx_sched)). split; [|left; reflexivity]. vm_compute. reflexivity.
Qed.
