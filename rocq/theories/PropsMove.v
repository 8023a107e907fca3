(** C99: multi_aggregators that are moved. *)
From Coq Require Import ZArith List Bool Arith Ascii Lia.
From Verif Require Import Base ModelTypes ModelReducer SpecReducer ModelSeparator ModelAggregator ModelRegistry ModelMulti SpecMulti
  SortFacts PropsRegistry PropsMulti ModelMove SpecMove MoveProofs.
Import ListNotations.

(** C99 *)
(** Whatever is declared, moved, assigned and called: every aggregator answers exactly as if it had stayed where it
    was made and had received its own calls only; the variable that holds it at the end is in the state those calls
    lead to. *)
Theorem C99_moves : forall ne hash ops outs xs, mv_run ne hash [] ops = Ok (outs, xs) ->
  forall k o, nth_error (tl_born (tale_of ops outs)) k = Some o ->
  exists m, ma_run ne hash (ma_new o) (calls_of k (tale_of ops outs)) = Ok (answers_of k (tale_of ops outs), m) /\
    forall i, nth_error (tl_holds (tale_of ops outs)) i = Some (Some k) -> nth_error xs i = Some m.
Proof. intros ne hash ops outs xs H. exact (proj2 (proj2 (proj2 (proj2 (proj2 (mv_reach _ _ _ _ _ H)))))). Qed.
Print Assumptions C99_moves.

(** No aggregator is ever in two variables. *)
Theorem C99_one_holder : forall ne hash ops outs xs, mv_run ne hash [] ops = Ok (outs, xs) ->
  length (tl_holds (tale_of ops outs)) = length xs /\
  forall i j k, nth_error (tl_holds (tale_of ops outs)) i = Some (Some k) ->
    nth_error (tl_holds (tale_of ops outs)) j = Some (Some k) -> i = j.
Proof.
  intros ne hash ops outs xs H. destruct (mv_reach _ _ _ _ _ H) as (L & _ & _ & U & _). split; [exact L|exact U].
Qed.
Print Assumptions C99_one_holder.

(** A variable whose aggregator was moved away hands over nothing and counts nothing; naming anything to it (push, del,
    multi_push of something) is undefined behaviour. *)
Theorem C99_moved_from : forall ne hash ops outs xs i c, mv_run ne hash [] ops = Ok (outs, xs) ->
  nth_error (tl_holds (tale_of ops outs)) i = Some None ->
  (nameless c = true -> exists ys, mv_run ne hash [] (ops ++ [VCall i c]) = Ok (outs ++ [Some (nothing c)], ys)) /\
  (nameless c = false -> mv_run ne hash [] (ops ++ [VCall i c]) = Ub).
Proof.
  intros ne hash ops outs xs i c H N. destruct (mv_reach _ _ _ _ _ H) as (_ & E & _).
  destruct (E _ N) as (m & A & Z0). destruct (empty_call_fwd ne hash c m Z0) as [F G].
  rewrite mv_run_app, H. cbn [bind mv_run mv_do]. unfold mv_at. rewrite A. cbn [bind]. split; intros Q.
  - destruct (F Q) as [m1 D]. rewrite D. cbn [bind]. eauto.
  - rewrite (G Q). reflexivity.
Qed.
Print Assumptions C99_moved_from.

(** A program with two aggregators: one is moved to a third variable, the other assigned into the vacated one; the
    windows go with them. *)
Definition vx_ops : list mvop :=
  [VNew mx_o; VCall 0 (MPush mx_e na (mx_d 108 4) true); VNew (mk_maopts (ma_agg mx_o) 5); VCall 1 (MPush mx_e nb (mx_d 108 5) true);
   VMove 0; VCall 2 (MPush mx_e na (mx_d 113 7) true); VCall 0 MSize; VAssign 0 1; VCall 0 (MPushout true true (fun l => l));
   VCall 2 MSize].
Example C99_moves_witness : exists outs xs, mv_run ne_rev mx_hash [] vx_ops = Ok (outs, xs) /\
  tl_holds (tale_of vx_ops outs) = [Some 1%nat; None; Some 0%nat] /\
  length (calls_of 0 (tale_of vx_ops outs)) = 3%nat /\ length (calls_of 1 (tale_of vx_ops outs)) = 2%nat /\
  map (fun r => match r with Some x => map (fun p => (fst p, ad_ts (snd p))) (mrecs x) | None => [] end) outs =
    [[]; []; []; []; []; [(na, 100%Z)]; []; []; [(nb, 100%Z)]; []] /\
  nth 6 outs None = Some (MSizes 0 0) /\
  mv_run ne_rev mx_hash [] (vx_ops ++ [VCall 1 (MDel na)]) = Ub.
Proof. eexists _, _. split; [vm_compute; reflexivity|]. vm_compute. repeat split. Qed.

(** x = std::move(x) loses everything x held, and x cannot be pushed to any more. *)
Theorem C99_self_move_refuted : ~ (forall ne hash ops i outs xs outs2 ys,
  mv_run ne hash [] ops = Ok (outs, xs) ->
  mv_run ne hash [] (ops ++ [VAssign i i; VCall i MSize]) = Ok (outs2, ys) ->
  mv_run ne hash [] (ops ++ [VCall i MSize]) = Ok (outs ++ [last outs2 None], xs)).
Proof.
  intros H.
  destruct (mv_run ne_rev mx_hash [] [VNew mx_o; VCall 0 (MPush mx_e na (mx_d 108 4) true)]) as [[outs xs]| |] eqn:A; [|vm_compute in A; discriminate..].
  destruct (mv_run ne_rev mx_hash [] ([VNew mx_o; VCall 0 (MPush mx_e na (mx_d 108 4) true)] ++ [VAssign 0 0; VCall 0 MSize])) as [[outs2 ys]| |] eqn:B; [|vm_compute in B; discriminate..].
  specialize (H _ _ _ _ _ _ _ _ A B). vm_compute in A, B, H. inversion A; inversion B; subst. discriminate.
Qed.
Print Assumptions C99_self_move_refuted.

(** Assigning over an aggregator that still has an open window: what was in it is handed to nobody, however the program
    is flushed afterwards. *)
Theorem C99_assigned_over_refuted : ~ (forall ne hash ops outs xs, mv_run ne hash [] ops = Ok (outs, xs) ->
  forall k o, nth_error (tl_born (tale_of ops outs)) k = Some o -> exists i, nth_error (tl_holds (tale_of ops outs)) i = Some (Some k)).
Proof.
  intros H.
  set (ops := [VNew mx_o; VCall 0 (MPush mx_e na (mx_d 108 4) true); VNew mx_o; VAssign 0 1]).
  destruct (mv_run ne_rev mx_hash [] ops) as [[outs xs]| |] eqn:A; [|vm_compute in A; discriminate..].
  specialize (H _ _ _ _ _ A 0%nat mx_o). vm_compute in A. inversion A; subst.
  destruct (H ltac:(vm_compute; reflexivity)) as [i Hi]. vm_compute in Hi. destruct i as [|[|[|i]]]; discriminate.
Qed.
Print Assumptions C99_assigned_over_refuted.
