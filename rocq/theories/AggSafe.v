(** Safety of an aggregator as a state invariant. *)
From Coq Require Import ZArith List Bool Permutation Lia Arith.
From Verif Require Import Base ModelTypes ModelAvg ModelReducer SpecReducer ModelSeparator SpecSeparator SepProofs SepSpecProofs SepRun SepSafe
  ModelAggregator SpecAggregator AggProofs AggRun AggFinal.
Import ListNotations.
Local Open Scope Z_scope.

Section Safe.
  Variable ne : nat -> list Z -> list Z.
  Hypothesis Hne : nth_element_ok ne.
  Variable o : aopts.
  Hypothesis Hs : 0 < so_step (ao_sep o) <= i64_max.

  (** At most [k] values recorded in the open window, all of them safe. *)
  Definition GSafe (k : nat) (g : agg) : Prop := exists a,
    ASim ne (so_red (ao_sep o)) (ao_out o) (so_step (ao_sep o)) (so_res (ao_sep o)) g a /\
    i64_min <= sp_cur (as_sp a) /\ Forall val_safe (values (sp_open (as_sp a))) /\
    (length (values (sp_open (as_sp a))) <= k)%nat.

  Lemma GSafe_le k k' g : (k <= k')%nat -> GSafe k g -> GSafe k' g.
  Proof. intros L (a & A & B & C & D). exists a. repeat (split; auto). lia. Qed.
  Lemma GSafe_new c rnd ts g : agg_new o c rnd ts = Ok g -> GSafe 0 g.
  Proof.
    intros E. exists (mk_as (mk_spec (agg_label g) [] []) [] true). split; [apply (new_asim ne o c rnd ts g ltac:(lia) E)|].
    simpl. split; [|split; [constructor|lia]].
    unfold agg_new in E. destruct (sep_new (ao_sep o) c rnd ts) as [s| |] eqn:Es; cbn [bind] in E; try discriminate.
    injection E as <-. destruct (new_sim ne (ao_sep o) c rnd ts s ltac:(lia) Es) as (_ & I & _). apply I.
  Qed.
  Lemma GSafe_call k g op : GSafe k g -> gop_typed op -> gop_safe (so_step (ao_sep o)) op ->
    Z.of_nat k < two64 ->
    exists r g', g_call ne op g = Ok (r, g') /\ GSafe (k + length (gop_values op)) g'.
  Proof.
    intros (a & SI & IC & OS & L) HT HS HL.
    assert (SI' := SI). destruct SI' as ((S1 & S2 & S3 & S4 & _) & _).
    destruct (gcall_total ne Hne (so_red (ao_sep o)) (ao_out o) _ _ g a op Hs SI) as (r & g1 & E); auto.
    { rewrite S3 in S4. unfold i64 in *. lia. }
    { split; auto. lia. }
    exists r, g1. split; auto.
    pose proof (gcall_sim ne Hne (so_red (ao_sep o)) (ao_out o) (so_step (ao_sep o)) (so_res (ao_sep o)) g a op r g1 ltac:(lia) SI HT E) as C.
    pose proof (aspec_call_safe _ (so_res (ao_sep o)) op a Hs HS IC OS) as P. cbv zeta in P.
    destruct (aspec_call _ _ op a) as [so a1]. destruct C as [_ C]. cbn [snd] in P. destruct P as (P1 & P2 & P3).
    exists a1. split; [exact C|]. repeat (split; auto). lia.
  Qed.
  Lemma GSafe_enable k g v : GSafe k g -> GSafe k (g_enable v g).
  Proof.
    intros G. destruct G as (a & SI & IC & OS & L).
    pose proof (gcall_sim ne Hne (so_red (ao_sep o)) (ao_out o) (so_step (ao_sep o)) (so_res (ao_sep o)) g a (GoEnable v) _ _ ltac:(lia) SI I eq_refl) as C.
    simpl in C. destruct C as [_ C]. eexists. split; [exact C|]. auto.
  Qed.

  (** What construction needs. *)
  Definition new_safe (c rnd ts : Z) : Prop :=
    time_ok (so_step (ao_sep o)) ts /\ time_ok (so_step (ao_sep o)) c /\
    (so_soiled (ao_sep o) = 0 \/ (i64_min + 2 ^ 62 <= ts /\ i64_min + 2 ^ 62 <= c /\ 0 <= rnd < 2 ^ 31 /\ i64 (so_soiled (ao_sep o)))).
  Lemma GSafe_make c rnd ts : new_safe c rnd ts -> exists g, agg_new o c rnd ts = Ok g /\ GSafe 0 g.
  Proof.
    intros (A & B & C). destruct (new_total (ao_sep o) c rnd ts Hs A B C) as (s & E).
    assert (E1 : agg_new o c rnd ts = Ok (mk_agg s (ao_out o) true [] true)) by (unfold agg_new; rewrite E; reflexivity).
    eexists. split; [exact E1|]. eapply GSafe_new; eauto.
  Qed.
End Safe.
