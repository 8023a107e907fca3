(** Property C66: the spinlock. *)
From Coq Require Import List Bool Arith Lia.
From Verif Require Import ModelSpin.
Import ListNotations.

Definition holding (p : spc) : bool := match p with SHold => true | _ => false end.
Definition holders (s : spin) : nat := length (filter holding (sp_thr s)).

Lemma sp_inv n acts s : sp_run n acts s -> length (sp_thr s) = n /\ holders s = if sp_value s then 1 else 0.
Proof.
  intros R. induction R as [|acts s t a o s' R IH S].
  - unfold holders, sp_new. cbn. rewrite repeat_length. split; auto. clear. induction n; cbn; auto.
  - destruct S as [v l p r a v' p' o D]. unfold holders in *. cbn [sp_thr sp_value] in *. rewrite filter_app, app_length in *. cbn in *.
    destruct IH as [L IH]. split; [rewrite app_length in *; cbn in *; lia|].
    destruct a, p; cbn in D; try discriminate; injection D as <- <- _; cbn in *; destruct v; cbn in *; rewrite ?app_length in *; cbn in *; lia.
Qed.

(** At most one thread holds the lock. *)
Theorem C66_mutual_exclusion : forall n acts s, sp_run n acts s ->
  forall i j, nth_error (sp_thr s) i = Some SHold -> nth_error (sp_thr s) j = Some SHold -> i = j.
Proof.
  intros n acts s R i j HI HJ. destruct (sp_inv _ _ _ R) as [_ E].
  assert (L : holders s <= 1) by (rewrite E; destruct (sp_value s); lia). clear E R. unfold holders in L.
  assert (G : forall l i j, length (filter holding l) <= 1 -> nth_error l i = Some SHold -> nth_error l j = Some SHold -> i = j).
  { clear. induction l as [|p l IH]; intros [|i] [|j] L HI HJ; cbn in *; try discriminate; auto.
    - injection HI as ->. cbn in L. apply nth_error_In in HJ. assert (In SHold (filter holding l)) by (apply filter_In; auto).
      destruct (filter holding l); [contradiction|cbn in L; lia].
    - injection HJ as ->. cbn in L. apply nth_error_In in HI. assert (In SHold (filter holding l)) by (apply filter_In; auto).
      destruct (filter holding l); [contradiction|cbn in L; lia].
    - f_equal. apply IH; auto. destruct (holding p); cbn in L; lia. }
  eauto.
Qed.
Print Assumptions C66_mutual_exclusion.

(** try_lock succeeds exactly when nobody holds the lock, and it never waits. *)
Theorem C66_try_lock : forall n acts s t, sp_run n acts s -> nth_error (sp_thr s) t = Some SOut ->
  exists b s', sp_step s t STry (Some b) s' /\ (b = true <-> forall i, nth_error (sp_thr s) i <> Some SHold) /\
    nth_error (sp_thr s') t = Some (if b then SHold else SOut).
Proof.
  intros n acts s t R H. destruct (sp_inv _ _ _ R) as [_ E]. apply nth_error_split in H. destruct s as [v thr]. cbn [sp_thr sp_value] in *.
  destruct H as (l & r & -> & <-). exists (negb v), (mk_spin true (l ++ (if v then SOut else SHold) :: r)). split; [now constructor|]. split.
  - unfold holders in E. cbn [sp_thr] in E. split.
    + destruct v; [discriminate|]. intros _ i HI. apply nth_error_In in HI. assert (In SHold (filter holding (l ++ SOut :: r))) by (apply filter_In; auto).
      destruct (filter holding (l ++ SOut :: r)); [contradiction|discriminate].
    + intros NO. destruct v; auto. exfalso. destruct (filter holding (l ++ SOut :: r)) as [|p q] eqn:F; [discriminate|].
      assert (IN : In p (filter holding (l ++ SOut :: r))) by (rewrite F; left; auto). apply filter_In in IN. destruct IN as [IN HP].
      apply In_nth_error in IN. destruct IN as [i HI]. destruct p; try discriminate. exact (NO _ HI).
  - cbn [sp_thr]. rewrite nth_error_app2 by lia. rewrite Nat.sub_diag. now destruct v.
Qed.
Print Assumptions C66_try_lock.

(** A thread inside lock() gets the lock at its next attempt if nobody holds it; after unlock() nobody holds it. *)
Theorem C66_progress : forall n acts s t, sp_run n acts s -> nth_error (sp_thr s) t = Some SSpin ->
  (forall i, nth_error (sp_thr s) i <> Some SHold) -> exists s', sp_step s t SXchg None s' /\ nth_error (sp_thr s') t = Some SHold.
Proof.
  intros n acts s t R H NO. destruct (sp_inv _ _ _ R) as [_ E]. apply nth_error_split in H. destruct s as [v thr]. cbn [sp_thr sp_value] in *.
  destruct H as (l & r & -> & <-). unfold holders in E. cbn [sp_thr] in E.
  assert (V : v = false).
  { destruct v; auto. exfalso. destruct (filter holding (l ++ SSpin :: r)) as [|p q] eqn:F; [discriminate|].
    assert (IN : In p (filter holding (l ++ SSpin :: r))) by (rewrite F; left; auto). apply filter_In in IN. destruct IN as [IN HP].
    apply In_nth_error in IN. destruct IN as [i HI]. destruct p; try discriminate. exact (NO _ HI). }
  subst v. exists (mk_spin true (l ++ SHold :: r)). split; [now constructor|]. cbn [sp_thr]. rewrite nth_error_app2 by lia. now rewrite Nat.sub_diag.
Qed.
Print Assumptions C66_progress.
Theorem C66_unlock : forall n acts s t o s', sp_run n acts s -> sp_step s t SUnlock o s' -> forall i, nth_error (sp_thr s') i <> Some SHold.
Proof.
  intros n acts s t o s' R S i H. pose proof (sp_inv _ _ _ (sp_snoc _ _ _ _ _ _ _ R S)) as [_ E].
  assert (V : sp_value s' = false).
  { destruct s as [v0 th0], s' as [v1 th1]. remember SUnlock as u eqn:U. inversion S as [v l p r a v' p' o' D]; subst. destruct p; cbn in D; try discriminate. now injection D as <- _ _. }
  rewrite V in E. unfold holders in E. apply nth_error_In in H.
  assert (In SHold (filter holding (sp_thr s'))) by (apply filter_In; auto). destruct (filter holding (sp_thr s')); [contradiction|discriminate].
Qed.
Print Assumptions C66_unlock.

Fixpoint sp_exec (l : list (nat * sact)) (s : spin) : option spin :=
  match l with
  | [] => Some s
  | (t, a) :: r =>
      match nth_error (sp_thr s) t with
      | None => None
      | Some p => match sp_do a (sp_value s) p with
                  | None => None
                  | Some (v', p', _) => sp_exec r (mk_spin v' (firstn t (sp_thr s) ++ p' :: skipn (S t) (sp_thr s)))
                  end
      end
  end.
Lemma exec_run n l : forall acts s s', sp_run n acts s -> sp_exec l s = Some s' -> sp_run n (acts ++ l) s'.
Proof.
  induction l as [|[t a] l IH]; intros acts s s' R E; cbn [sp_exec] in E; [injection E as <-; now rewrite app_nil_r|].
  destruct (nth_error (sp_thr s) t) as [p|] eqn:T; [|discriminate]. destruct (sp_do a (sp_value s) p) as [[[v' p'] o]|] eqn:D; [|discriminate].
  replace (acts ++ (t, a) :: l) with ((acts ++ [(t, a)]) ++ l) by (rewrite <- app_assoc; reflexivity). eapply IH; [|exact E]. eapply sp_snoc; [exact R|].
  apply nth_error_split in T. destruct s as [v thr]. cbn [sp_thr sp_value] in *. destruct T as (x & y & -> & <-).
  rewrite firstn_app, firstn_all, Nat.sub_diag. cbn [firstn]. rewrite app_nil_r.
  replace (skipn (S (length x)) (x ++ p :: y)) with y; [econstructor; eauto|].
  change (x ++ p :: y) with (x ++ [p] ++ y). rewrite app_assoc, skipn_app, skipn_all2 by (rewrite app_length; cbn; lia).
  rewrite app_length. cbn [length]. replace (S (length x) - (length x + 1)) with 0 by lia. reflexivity.
Qed.

(** There is no fairness: while one thread waits in lock(), another can take and release the lock any number of times. *)
Theorem C66_no_fairness : forall k, exists acts s, sp_run 2 acts s /\ nth_error (sp_thr s) 0 = Some SSpin /\
  length (filter (fun q => match q with (1, SXchg) => true | _ => false end) acts) = k /\
  length (filter (fun q => match q with (0, SXchg) => true | _ => false end) acts) = k.
Proof.
  assert (G : forall k, exists acts, sp_run 2 acts (mk_spin false [SSpin; SOut]) /\
    length (filter (fun q => match q with (1, SXchg) => true | _ => false end) acts) = k /\
    length (filter (fun q => match q with (0, SXchg) => true | _ => false end) acts) = k).
  { induction k as [|k (acts & R & L & L0)].
    - exists [(0, SLock)]. split; [|auto]. apply (exec_run 2 [(0, SLock)] [] (sp_new 2)); [constructor|reflexivity].
    - exists (acts ++ [(1, SLock); (1, SXchg); (0, SXchg); (1, SUnlock)]). split; [eapply exec_run; [exact R|reflexivity]|].
      rewrite !filter_app, !app_length, L, L0. cbn. lia. }
  intros k. destruct (G k) as (acts & R & L & L0). exists acts, (mk_spin false [SSpin; SOut]). auto.
Qed.
Print Assumptions C66_no_fairness.

Example C66_witness : exists s, sp_run 3 [(0, SLock); (1, SLock); (0, SXchg); (1, SXchg); (2, STry); (0, SUnlock); (1, SXchg); (0, SLock)] s /\
  sp_thr s = [SSpin; SHold; SOut].
Proof. eexists. split; [apply (exec_run 3 _ [] (sp_new 3)); [constructor|reflexivity]|reflexivity]. Qed.
