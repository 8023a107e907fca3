(** Properties C51 and C52: points of measurement. *)
From Coq Require Import ZArith List Bool Arith Lia.
From Verif Require Import Base SortFacts ModelTypes ModelReducer ModelRegistry ModelMeters.
Import ListNotations.
Local Open Scope Z_scope.

(** How often function [f] was attached to a point, called, or dropped *)
Definition n_starts (f : nat) (l : list mevent) : nat := length (filter (fun e => match e with EvStart g => (g =? f)%nat | _ => false end) l).
Definition n_reports (f : nat) (l : list mevent) : nat := length (filter (fun e => match e with EvReport r => (rp_fun r =? f)%nat | _ => false end) l).
Definition n_lost (f : nat) (l : list mevent) : nat := length (filter (fun e => match e with EvLost g => (g =? f)%nat | _ => false end) l).
(** Existing points that still have to report to [f] *)
Definition pends (f : nat) (x : option point) : bool := match x with Some p => match p_fun p with Some g => (g =? f)%nat | None => false end | None => false end.
Definition n_pending (f : nat) (s : store) : nat := length (filter (pends f) s).
Definition once_kind (k : kind) : bool := match k with KValue => false | _ => true end.
Definition no_value (o : mop) : Prop := match o with MNew KValue _ _ _ _ _ _ _ => False | _ => True end.
Definition no_assign (o : mop) : Prop := match o with MAssign _ _ => False | _ => True end.

(* ---- proof ---- *)
Lemma app_starts f a b : n_starts f (a ++ b) = (n_starts f a + n_starts f b)%nat.
Proof. unfold n_starts. now rewrite filter_app, app_length. Qed.
Lemma app_reports f a b : n_reports f (a ++ b) = (n_reports f a + n_reports f b)%nat.
Proof. unfold n_reports. now rewrite filter_app, app_length. Qed.
Lemma app_lost f a b : n_lost f (a ++ b) = (n_lost f a + n_lost f b)%nat.
Proof. unfold n_lost. now rewrite filter_app, app_length. Qed.
Lemma app_pending f a b : n_pending f (a ++ b) = (n_pending f a + n_pending f b)%nat.
Proof. unfold n_pending. now rewrite filter_app, app_length. Qed.
Definition b1 (b : bool) : nat := if b then 1%nat else 0%nat.
Lemma set_pending f i p x (s : store) : m_get i s = Some p -> (n_pending f (set_nth i x s) + b1 (pends f (Some p)) = n_pending f s + b1 (pends f x))%nat.
Proof.
  unfold m_get. revert i. induction s as [|y s IH]; intros [|i] H; cbn [nth_error] in H; try discriminate.
  - destruct y as [q|]; [|discriminate]. injection H as ->. unfold n_pending. cbn [set_nth filter]. destruct (pends f x), (pends f (Some p)); cbn; lia.
  - specialize (IH i H). unfold n_pending in *. cbn [set_nth filter]. destruct (pends f y); cbn [length]; lia.
Qed.
Lemma set_get i x (s : store) p : m_get i s = Some p -> m_get i (set_nth i (Some x) s) = Some x.
Proof. unfold m_get. revert i. induction s as [|y s IH]; intros [|i] H; cbn in *; try discriminate; auto. Qed.
Lemma set_get_other i j x (s : store) : i <> j -> m_get i (set_nth j x s) = m_get i s.
Proof. unfold m_get. revert i j. induction s as [|y s IH]; intros [|i] [|j] H; cbn in *; try reflexivity; try congruence. apply IH. congruence. Qed.

Lemma starts_n f g : n_starts f (starts g) = b1 (match g with Some h => (h =? f)%nat | None => false end) /\ n_reports f (starts g) = 0%nat /\ n_lost f (starts g) = 0%nat.
Proof. destruct g as [g|]; cbn; auto. unfold n_starts, n_reports, n_lost. cbn. destruct (g =? f)%nat; cbn; auto. Qed.
Lemma lost_n f g : n_lost f (lost g) = b1 (match g with Some h => (h =? f)%nat | None => false end) /\ n_reports f (lost g) = 0%nat /\ n_starts f (lost g) = 0%nat.
Proof. destruct g as [g|]; cbn; auto. unfold n_starts, n_reports, n_lost. cbn. destruct (g =? f)%nat; cbn; auto. Qed.
Lemma push_n f now clk p : n_reports f (map EvReport (fst (p_push now clk p))) = b1 (pends f (Some p)) /\
  n_starts f (map EvReport (fst (p_push now clk p))) = 0%nat /\ n_lost f (map EvReport (fst (p_push now clk p))) = 0%nat.
Proof.
  unfold p_push, pends. destruct (p_fun p) as [g|]; [|cbn; auto]. unfold n_reports, n_starts, n_lost.
  destruct (p_kind p); cbn; destruct (g =? f)%nat; cbn; auto.
Qed.
Lemma push_none now clk p : once_kind (p_kind p) = true -> p_fun (snd (p_push now clk p)) = None.
Proof. unfold p_push. destruct (p_fun p) eqn:E; [|intros _; exact E]. destruct (p_kind p); cbn; intros; congruence. Qed.
Lemma push_kind now clk p : p_kind (snd (p_push now clk p)) = p_kind p.
Proof. unfold p_push. destruct (p_fun p); [|reflexivity]. destruct (p_kind p) eqn:E; cbn; auto. Qed.
Lemma new_fun k f c v rd wr sh clk : p_fun (p_new k f c v rd wr sh clk) = f /\ p_kind (p_new k f c v rd wr sh clk) = k.
Proof. destruct k; cbn; auto. Qed.
Lemma set_fun s p : p_fun (p_set s p) = p_fun p /\ p_kind (p_set s p) = p_kind p.
Proof. unfold p_set. destruct (p_kind p) eqn:E, s; cbn; auto. Qed.
Lemma reset_fun p : p_fun (p_reset p) = p_fun p /\ p_kind (p_reset p) = p_kind p.
Proof. unfold p_reset. destruct (p_kind p) eqn:E; cbn; auto. Qed.
Lemma pends_eq f p q : p_fun p = p_fun q -> pends f (Some p) = pends f (Some q).
Proof. unfold pends. intros ->. reflexivity. Qed.

Lemma pending_one f p : n_pending f [Some p] = b1 (pends f (Some p)).
Proof. unfold n_pending. cbn [filter]. destruct (pends f (Some p)); reflexivity. Qed.
Lemma pends_fun f p g : p_fun p = g -> pends f (Some p) = match g with Some h => (h =? f)%nat | None => false end.
Proof. intros <-. reflexivity. Qed.

Definition all_once (s : store) : Prop := forall i p, m_get i s = Some p -> once_kind (p_kind p) = true.
Lemma all_once_set i x s p : all_once s -> m_get i s = Some p -> (forall q, x = Some q -> once_kind (p_kind q) = true) -> all_once (set_nth i x s).
Proof.
  intros A G X j q H. destruct (Nat.eq_dec j i) as [->|N]; [|rewrite set_get_other in H by exact N; eapply A; exact H].
  destruct x as [x|]; [rewrite (set_get i x s p G) in H; apply X; congruence|].
  exfalso. unfold m_get in *. clear - H G. revert i H G. induction s as [|y s IH]; intros [|i] H G; cbn in *; try discriminate. eauto.
Qed.
Lemma all_once_app s p : all_once s -> once_kind (p_kind p) = true -> all_once (s ++ [Some p]).
Proof.
  intros A K i q H. unfold m_get in H. destruct (lt_dec i (length s)) as [L|L].
  - rewrite nth_error_app1 in H by exact L. apply (A i). exact H.
  - rewrite nth_error_app2 in H by lia. destruct (i - length s)%nat as [|n]; cbn in H; [injection H as <-; exact K|]. destruct n; discriminate.
Qed.

Lemma m_do_inv o s f : all_once s -> no_value o ->
  all_once (snd (m_do o s)) /\
  (n_pending f s + n_starts f (fst (m_do o s)) = n_reports f (fst (m_do o s)) + n_lost f (fst (m_do o s)) + n_pending f (snd (m_do o s)))%nat.
Proof.
  intros A V.
  assert (Nil : all_once s /\ (n_pending f s + n_starts f [] = n_reports f [] + n_lost f [] + n_pending f s)%nat) by (split; [exact A|cbn; lia]).
  destruct o; cbn [m_do].
  - cbn [fst snd]. destruct (starts_n f f0) as (-> & -> & ->). destruct (new_fun k f0 count value rd wr shift clk) as [N1 N2]. split.
    + apply all_once_app; [exact A|]. rewrite N2. destruct k; cbn in *; auto.
    + rewrite app_pending, pending_one, (pends_fun f _ _ N1). lia.
  - destruct (m_get i s) as [p|] eqn:G; [|exact Nil]. cbn [fst snd]. destruct (set_fun s0 p) as [F K]. split.
    + apply (all_once_set _ _ _ p); auto. intros q [= <-]. rewrite K. eapply A. exact G.
    + pose proof (set_pending f i p (Some (p_set s0 p)) s G) as P. rewrite (pends_eq f _ _ F) in P. cbn. lia.
  - destruct (m_get i s) as [p|] eqn:G; [|exact Nil]. cbn [fst snd]. destruct (push_n f now clk p) as (-> & -> & ->). pose proof (A i p G) as K. split.
    + apply (all_once_set _ _ _ p); auto. intros q [= <-]. now rewrite push_kind.
    + pose proof (set_pending f i p (Some (snd (p_push now clk p))) s G) as P. rewrite (pends_fun f _ _ (push_none now clk p K)) in P. cbn [b1] in P. lia.
  - destruct (m_get i s) as [p|] eqn:G; [|exact Nil]. cbn [fst snd]. destruct (reset_fun p) as [F K]. split.
    + apply (all_once_set _ _ _ p); auto. intros q [= <-]. rewrite K. eapply A. exact G.
    + pose proof (set_pending f i p (Some (p_reset p)) s G) as P. rewrite (pends_eq f _ _ F) in P. cbn. lia.
  - destruct (m_get i s) as [p|] eqn:G; [|exact Nil]. cbn [fst snd p_reset_fun]. rewrite app_starts, app_reports, app_lost. destruct (push_n f now clk p) as (-> & -> & ->). destruct (starts_n f f0) as (-> & -> & ->).
    destruct (new_fun (p_kind p) f0 count value rd wr shift clk2) as [N1 N2]. split.
    + apply (all_once_set _ _ _ p); auto. intros q [= <-]. rewrite N2. eapply A. exact G.
    + pose proof (set_pending f i p (Some (p_new (p_kind p) f0 count value rd wr shift clk2)) s G) as P. rewrite (pends_fun f _ _ N1) in P. lia.
  - destruct (m_get i s) as [p|] eqn:G; [|exact Nil]. cbn [fst snd]. destruct (starts_n f (p_fun p)) as (-> & -> & ->). unfold p_clone. destruct (new_fun (p_kind p) (p_fun p) count value rd wr shift clk) as [N1 N2]. split.
    + apply all_once_app; [exact A|]. rewrite N2. eapply A. exact G.
    + rewrite app_pending, pending_one, (pends_fun f _ _ N1). lia.
  - destruct (m_get i s) as [p|] eqn:G; [|exact Nil]. cbn [fst snd]. pose proof (A i p G) as K. split.
    + apply all_once_app; [|exact K]. apply (all_once_set _ _ _ p); auto. intros q [= <-]. exact K.
    + rewrite app_pending, pending_one. pose proof (set_pending f i p (Some (p_set_fun None p)) s G) as P. rewrite (pends_fun f (p_set_fun None p) None eq_refl) in P. cbn [b1] in P. unfold n_starts, n_reports, n_lost. cbn [filter length]. lia.
  - destruct (m_get i s) as [p|] eqn:G; [|exact Nil]. destruct (m_get j s) as [q|] eqn:G2; [|exact Nil]. destruct (Nat.eqb_spec i j) as [E|E]; [exact Nil|]. cbn [fst snd].
    destruct (lost_n f (p_fun p)) as (-> & -> & ->). pose proof (A i p G) as K. pose proof (A j q G2) as K2.
    assert (G3 : m_get j (set_nth i (Some q) s) = Some q) by (rewrite set_get_other by congruence; exact G2). split.
    + apply (all_once_set _ _ _ q); auto. { apply (all_once_set _ _ _ p); auto. intros x [= <-]. exact K2. } intros x [= <-]. exact K2.
    + pose proof (set_pending f i p (Some q) s G) as P1. pose proof (set_pending f j q (Some (p_set_fun None q)) _ G3) as P2. rewrite (pends_fun f (p_set_fun None q) None eq_refl) in P2. cbn [b1] in P2. rewrite <- (pends_fun f p _ eq_refl). lia.
  - destruct (m_get i s) as [p|] eqn:G; [|exact Nil]. cbn [fst snd]. destruct (push_n f now clk p) as (-> & -> & ->). split.
    + apply (all_once_set _ _ _ p); auto. discriminate.
    + pose proof (set_pending f i p None s G) as P. change (b1 (pends f None)) with 0%nat in P. lia.
Qed.

Lemma m_run_inv f os : forall s, all_once s -> Forall no_value os ->
  (n_pending f s + n_starts f (fst (m_run os s)) = n_reports f (fst (m_run os s)) + n_lost f (fst (m_run os s)) + n_pending f (snd (m_run os s)))%nat.
Proof.
  induction os as [|o os IH]; intros s A V; cbn [m_run]; [unfold n_starts, n_reports, n_lost; cbn [fst snd filter length]; lia|]. inversion V; subst.
  destruct (m_do_inv o s f A H1) as [A1 E1]. destruct (m_do o s) as [e1 s1]. cbn [fst snd] in *. specialize (IH s1 A1 H2). destruct (m_run os s1) as [e2 s2]. cbn [fst snd] in *.
  rewrite app_starts, app_reports, app_lost. lia.
Qed.
Lemma m_do_lost o s f : no_assign o -> n_lost f (fst (m_do o s)) = 0%nat.
Proof.
  intros N. destruct o; cbn [m_do]; try (destruct (m_get i s) as [p|]; [|reflexivity]); cbn [fst p_reset_fun]; rewrite ?app_lost; try contradiction; try reflexivity;
    rewrite ?(proj2 (proj2 (push_n f _ _ _))), ?(proj2 (proj2 (starts_n f _))); reflexivity.
Qed.
Lemma m_run_lost f os : forall s, Forall no_assign os -> n_lost f (fst (m_run os s)) = 0%nat.
Proof.
  induction os as [|o os IH]; intros s N; cbn [m_run]; [reflexivity|]. inversion N; subst. pose proof (m_do_lost o s f H1). destruct (m_do o s) as [e1 s1]. specialize (IH s1 H2). destruct (m_run os s1) as [e2 s2]. cbn [fst] in *. rewrite app_lost. lia.
Qed.

(** Exactly once: time, size and composite points, in any program without move assignment.  Once all points are destroyed,
    each function was called as often as it was attached to a point; before that, the difference is the number of points
    that still have to report. *)
Theorem C51_exactly_once_partial : forall os ev s f, Forall no_value os -> Forall no_assign os -> m_run os [] = (ev, s) ->
  n_starts f ev = (n_reports f ev + n_pending f s)%nat /\ ((forall i, m_get i s = None) -> n_reports f ev = n_starts f ev).
Proof.
  intros os ev s f V A E. pose proof (m_run_inv f os [] ltac:(intros i p H; unfold m_get in H; destruct i; discriminate) V) as H.
  pose proof (m_run_lost f os [] A) as L. rewrite E in *. cbn [fst snd] in *. change (n_pending f []) with 0%nat in H. split; [lia|].
  intros D. assert (P : n_pending f s = 0%nat).
  { unfold n_pending. clear - D. induction s as [|x s IH]; [reflexivity|]. cbn [filter]. destruct x as [p|]; [specialize (D O); discriminate|]. cbn. apply IH. intros i. exact (D (S i)). }
  lia.
Qed.
Print Assumptions C51_exactly_once_partial.

(** What is reported: the elapsed time in ticks (rounded towards zero) with the count given last; the size; the sizes set last.  After
    the report the point is silent. *)
Theorem C51_report : forall k f count value rd wr shift clk ss now clk', once_kind k = true ->
  let p := fold_left (fun p s => p_set s p) ss (p_new k (Some f) count value rd wr shift clk) in
  (forall v, In (SetStart v) ss -> k = KSize \/ exists d, k = KTime d) ->
  exists r, fst (p_push now clk' p) = [r] /\ rp_fun r = f /\ rp_now r = now /\
  (forall d, k = KTime d -> rp_value r = Z.quot (clk' - clk) d /\ rp_count r = count /\ rp_sizes r = None) /\
  (forall d, k = KComp d -> rp_value r = Z.quot (clk' - (clk - shift * d)) d /\ rp_count r = count /\
     rp_sizes r = Some (fold_left (fun a s => match s with SetRead v => v | _ => a end) ss rd, fold_left (fun a s => match s with SetWrite v => v | _ => a end) ss wr)) /\
  (k = KSize -> rp_value r = fold_left (fun a s => match s with SetValue v => v | _ => a end) ss value /\ rp_count r = u64 (rp_value r)) /\
  (forall now2 clk2 ss2, fst (p_push now2 clk2 (fold_left (fun p s => p_set s p) ss2 (p_reset (snd (p_push now clk' p))))) = []).
Proof.
  intros k f count value rd wr shift clk ss now clk' K p S.
  assert (Silent : forall ss q, p_fun q = None -> p_fun (fold_left (fun p s => p_set s p) ss q) = None).
  { clear. induction ss as [|s ss IH]; intros q H; [exact H|]. cbn. apply IH. now rewrite (proj1 (set_fun s q)). }
  assert (Z0 : forall now2 clk2 ss2, p_fun (snd (p_push now clk' p)) = None -> fst (p_push now2 clk2 (fold_left (fun p s => p_set s p) ss2 (p_reset (snd (p_push now clk' p))))) = []).
  { intros now2 clk2 ss2 H. unfold p_push at 1. rewrite Silent; [reflexivity|]. now rewrite (proj1 (reset_fun _)). }
  assert (KF : p_kind p = k /\ p_fun p = Some f).
  { unfold p. destruct (new_fun k (Some f) count value rd wr shift clk) as [N1 N2]. set (q := p_new k (Some f) count value rd wr shift clk) in *. clearbody q. clear - N1 N2.
    revert q N1 N2. induction ss as [|s ss IH]; intros q N1 N2; cbn; [auto|]. destruct (set_fun s q). apply IH; congruence. }
  destruct KF as [PK PF].
  assert (Shape : p = match k with
     | KTime d => mk_point k (Some f) count 0 0 0 clk
     | KComp d => mk_point k (Some f) count 0 (fold_left (fun a s => match s with SetRead v => v | _ => a end) ss rd) (fold_left (fun a s => match s with SetWrite v => v | _ => a end) ss wr) (clk - shift * d)
     | KSize => mk_point k (Some f) 0 (fold_left (fun a s => match s with SetValue v => v | _ => a end) ss value) 0 0 0
     | KValue => p end).
  { unfold p. destruct k as [d| | |d]; cbn [p_new]; [| |reflexivity|].
    - clear. induction ss as [|s ss IH]; [reflexivity|]. cbn. exact IH.
    - clear. revert value. induction ss as [|s ss IH]; intros value; [reflexivity|]. destruct s; cbn; apply IH.
    - assert (X : (if shift =? 0 then clk else clk - shift * d) = clk - shift * d) by (destruct (Z.eqb_spec shift 0); subst; lia). rewrite X. clear X.
      assert (NS : forall v, ~ In (SetStart v) ss) by (intros v I; destruct (S v I) as [?|[? ?]]; discriminate).
      clear - NS. revert rd wr. induction ss as [|s ss IH]; intros rd wr; [reflexivity|]. destruct s as [w|w|w|w|w]; cbn; try (apply IH; intros x I; exact (NS x (or_intror I))). exfalso. exact (NS w (or_introl eq_refl)). }
  assert (PN : p_fun (snd (p_push now clk' p)) = None) by (apply push_none; rewrite PK; exact K).
  unfold p_push at 1. rewrite PF, PK. destruct k as [d| | |d]; try discriminate; (eexists; split; [reflexivity|]); (split; [reflexivity|]); (split; [reflexivity|]);
    rewrite Shape; cbn [rp_value rp_count rp_sizes p_start p_count p_value p_read p_write span];
    (split; [intros d' E; try discriminate; injection E as <-; auto|]); (split; [intros d' E; try discriminate; injection E as <-; auto|]); (split; [intros E; try discriminate; auto|]);
    rewrite <- Shape; intros; apply Z0; exact PN.
Qed.
Print Assumptions C51_report.

(** A value point reports at every push() and once more when it is destroyed. *)
Theorem C51_value_point_partial : forall os p i s, m_get i s = Some p -> p_kind p = KValue -> p_fun p <> None ->
  Forall (fun o => exists now clk, o = MPush i now clk) os -> forall now clk,
  length (fst (m_run (os ++ [MDestroy i now clk]) s)) = S (length os).
Proof.
  induction os as [|o os IH]; intros p i s G K F A now clk.
  - cbn. rewrite G. cbn. unfold p_push. destruct (p_fun p); [|congruence]. now rewrite K.
  - inversion A as [|? ? (n & c & ->) A']; subst. cbn [app m_run m_do]. rewrite G. unfold p_push. destruct (p_fun p) eqn:PF; [|congruence]. rewrite K. cbn [fst snd map].
    specialize (IH p i (set_nth i (Some p) s) (set_get i p s p G) K ltac:(congruence) A' now clk). destruct (m_run (os ++ [MDestroy i now clk]) (set_nth i (Some p) s)) as [e s2]. cbn in *. lia.
Qed.
Print Assumptions C51_value_point_partial.
Theorem C51_value_point_refuted : exists ev s, m_run [MNew KValue (Some 7%nat) 1 42 0 0 0 0; MPush 0 100 0; MDestroy 0 101 0] [] = (ev, s) /\
  (forall i, m_get i s = None) /\ n_starts 7 ev = 1%nat /\ n_reports 7 ev = 2%nat.
Proof. eexists _, _. split; [vm_compute; reflexivity|]. split; [intros [|[|i]]; reflexivity|]. vm_compute. auto. Qed.
Print Assumptions C51_value_point_refuted.

(** Move assignment forgets the report of the point that is overwritten. *)
Theorem C51_assign_refuted : exists ev s, m_run [MNew (KTime 1000) (Some 1%nat) 1 0 0 0 0 0; MNew (KTime 1000) (Some 2%nat) 1 0 0 0 0 0; MAssign 0 1; MDestroy 1 5 9000; MDestroy 0 5 9000] [] = (ev, s) /\
  (forall i, m_get i s = None) /\ n_starts 1 ev = 1%nat /\ n_reports 1 ev = 0%nat /\ n_reports 2 ev = 1%nat.
Proof. eexists _, _. split; [vm_compute; reflexivity|]. split; [intros [|[|[|i]]]; reflexivity|]. vm_compute. auto. Qed.
Print Assumptions C51_assign_refuted.

Example C51_witness : exists ev s, m_run [MNew (KComp 1000) (Some 1%nat) 1 0 5 6 2 10000; MClone 0 3 0 7 8 0 10500; MMove 0; MSet 2 (SetRead 50); MPush 1 77 20500; MResetFun 1 (Some 2%nat) 1 0 0 0 0 78 21000 21000;
   MDestroy 0 79 22000; MDestroy 2 79 23000; MDestroy 1 80 30000] [] = (ev, s) /\
  ev = [EvStart 1; EvStart 1; EvReport (mk_report 1 77 10 3 (Some (7, 8))); EvStart 2; EvReport (mk_report 1 79 15 1 (Some (50, 6))); EvReport (mk_report 2 80 9 1 (Some (0, 0)))].
Proof. eexists _, _. split; [vm_compute; reflexivity|]. reflexivity. Qed.

(** A multi-point: every one of its points reports once, with the same count and sizes. *)
Theorem C51_multi : forall k fs count value rd wr shift clks ts, once_kind k = true -> length clks = length fs -> length ts = length fs ->
  map rp_fun (mp_destroy ts (mm_create k fs count value rd wr shift clks)) = flat_map (fun f => match f with Some g => [g] | None => [] end) fs /\
  (forall r d, In r (mp_destroy ts (mm_create k fs count value rd wr shift clks)) -> k = KComp d -> rp_count r = count /\ rp_sizes r = Some (rd, wr)).
Proof.
  intros k fs count value rd wr shift clks ts K. revert clks ts. induction fs as [|f fs IH]; intros clks ts L1 L2; [split; [reflexivity|contradiction]|].
  destruct clks as [|c clks]; [discriminate|]. destruct ts as [|[n c2] ts]; [discriminate|]. cbn in L1, L2. injection L1 as L1. injection L2 as L2. destruct (IH clks ts L1 L2) as [I1 I2].
  unfold mp_destroy, mm_create in *. cbn [combine map flat_map fst snd]. rewrite map_app, I1. split.
  - f_equal. unfold p_push. rewrite (proj1 (new_fun k f count value rd wr shift c)), (proj2 (new_fun k f count value rd wr shift c)). destruct f; [|reflexivity]. destruct k; reflexivity.
  - intros r d I E. apply in_app_iff in I. destruct I as [I|I]; [|eapply I2; eassumption]. subst k. unfold p_push in I. cbn [p_new p_fun p_kind] in I. destruct f; cbn in I; [|contradiction]. destruct I as [<-|[]]. cbn. auto.
Qed.
Print Assumptions C51_multi.
Example C51_multi_witness : mp_destroy [(100, 5000); (101, 6000); (102, 7000)] (mm_create (KTime 1000) [Some 3; None; Some 4]%nat 2 0 0 0 0 [1000; 1100; 1200]) =
  [mk_report 3 100 4 2 None; mk_report 4 102 5 2 None].
Proof. reflexivity. Qed.

(** Whatever is done with a multi-point: each of its points reports what a point of its own, treated the same way, would report. *)
Inductive multi_op := OSet (s : setter) | OReset.
Definition multi_do (l : list point) (o : multi_op) : list point := match o with OSet s => mp_set s l | OReset => mp_reset l end.
Definition alone (o : multi_op) : mop := match o with OSet s => MSet 0 s | OReset => MReset 0 end.
(** What a program with points of its own reports. *)
Definition reported (os : list mop) : list report := flat_map (fun e => match e with EvReport r => [r] | _ => [] end) (fst (m_run os [])).
Definition done_to (p : point) (o : multi_op) : point := match o with OSet s => p_set s p | OReset => p_reset p end.
Lemma multi_fold ops : forall l, fold_left multi_do ops l = map (fun p => fold_left done_to ops p) l.
Proof.
  induction ops as [|o ops IH]; intros l; cbn [fold_left]; [symmetry; apply map_id|]. rewrite IH. destruct o; unfold multi_do, mp_set, mp_reset; rewrite map_map; reflexivity.
Qed.
Lemma run_alone ops : forall p rest, m_run (map alone ops ++ rest) [Some p] = m_run rest [Some (fold_left done_to ops p)].
Proof.
  induction ops as [|o ops IH]; intros p rest; [reflexivity|]. cbn [map app m_run fold_left]. destruct o; cbn [alone m_do m_get nth_error set_nth done_to]; rewrite IH; destruct (m_run rest _); reflexivity.
Qed.
Lemma reported_new k f c v rd wr sh clk ops rest : reported (MNew k f c v rd wr sh clk :: map alone ops ++ rest) =
  flat_map (fun e => match e with EvReport r => [r] | _ => [] end) (fst (m_run rest [Some (fold_left done_to ops (p_new k f c v rd wr sh clk))])).
Proof.
  unfold reported. cbn [m_run m_do app]. rewrite run_alone. destruct (m_run rest _) as [e s]. cbn [fst]. rewrite flat_map_app. destruct f; reflexivity.
Qed.
Lemma only_reports l : flat_map (fun e => match e with EvReport r => [r] | _ => [] end) (map EvReport l) = l.
Proof. induction l as [|r l IH]; [reflexivity|]. cbn. now rewrite IH. Qed.
Theorem C51_multi_each : forall k count value rd wr shift ops (xs : list (option nat * Z * (Z * Z))),
  mp_destroy (map snd xs) (fold_left multi_do ops (mm_create k (map (fun x => fst (fst x)) xs) count value rd wr shift (map (fun x => snd (fst x)) xs))) =
  flat_map (fun '(f, clk, (now, clk')) => reported (MNew k f count value rd wr shift clk :: map alone ops ++ [MDestroy 0 now clk'])) xs.
Proof.
  intros k count value rd wr shift ops xs. rewrite multi_fold. unfold mp_destroy, mm_create.
  induction xs as [|[[f c] [n c']] xs IH]; [reflexivity|]. cbn [map combine flat_map fst snd]. rewrite IH. f_equal.
  rewrite reported_new. cbn [m_run m_do m_get nth_error]. cbn [fst]. rewrite app_nil_r, only_reports. reflexivity.
Qed.
Print Assumptions C51_multi_each.
Theorem C51_multi_clone : forall k count value rd wr shift ops c2 v2 rd2 wr2 sh2 (xs : list (option nat * Z * Z * (Z * Z))),
  mp_destroy (map snd xs) (mp_clone c2 v2 rd2 wr2 sh2 (map (fun x => snd (fst x)) xs)
    (fold_left multi_do ops (mm_create k (map (fun x => fst (fst (fst x))) xs) count value rd wr shift (map (fun x => snd (fst (fst x))) xs)))) =
  flat_map (fun '(f, clk, clk2, (now, clk')) =>
    reported (MNew k f count value rd wr shift clk :: map alone ops ++ [MClone 0 c2 v2 rd2 wr2 sh2 clk2; MDestroy 1 now clk'])) xs.
Proof.
  intros k count value rd wr shift ops c2 v2 rd2 wr2 sh2 xs. rewrite multi_fold. unfold mp_destroy, mm_create, mp_clone.
  induction xs as [|[[[f c] c3] [n c']] xs IH]; [reflexivity|]. cbn [map combine flat_map fst snd]. rewrite IH. f_equal.
  rewrite reported_new. cbn [m_run m_do m_get nth_error app]. cbn [fst]. rewrite app_nil_r, flat_map_app, only_reports.
  destruct (p_fun _); reflexivity.
Qed.
Print Assumptions C51_multi_clone.
Example C51_each_witness :
  mp_destroy [(100, 5000); (101, 6000); (102, 7000)] (fold_left multi_do [OSet (SetRead 7); OSet (SetWrite 8)]
    (mm_create (KComp 1000) [Some 3; None; Some 4]%nat 2 0 5 6 0 [1000; 1100; 1200])) =
    [mk_report 3 100 4 2 (Some (7, 8)); mk_report 4 102 5 2 (Some (7, 8))] /\
  mp_destroy [(100, 5000); (102, 7000)] (fold_left multi_do [OReset] (mm_create (KComp 1000) [Some 3; Some 4]%nat 2 0 5 6 0 [1000; 1200])) =
    [mk_report 3 100 4 0 (Some (0, 0)); mk_report 4 102 5 0 (Some (0, 0))].
Proof. vm_compute. auto. Qed.

(** C52: after reset() a point still reports: a value with count 0.  It counts as nothing ... *)
Theorem C52_counts_nothing_partial : forall p now clk r v rd, In r (fst (p_push now clk (p_reset p))) ->
  rp_count r = 0 /\ (0 <= r_total rd < two64 -> r_total_count (r_add v (rp_count r) rd) = r_total_count rd).
Proof.
  intros p now clk r v rd I. assert (C : rp_count r = 0).
  { unfold p_push, p_reset in I. destruct (p_kind p) eqn:K; cbn in I; rewrite ?K in I; destruct (p_fun p); cbn in I; try contradiction; destruct I as [<-|[]]; reflexivity. }
  split; [exact C|]. intros B. rewrite C. unfold r_total_count, r_add, r_account. cbn [r_total]. assert (T : r_total (r_add1 v rd) = r_total rd).
  { unfold r_add1. destruct (_ || _); [destruct (_ || _)|]; reflexivity. }
  rewrite T, Z.add_0_r. unfold u64. apply Z.mod_small. exact B.
Qed.
Print Assumptions C52_counts_nothing_partial.

Example C52_witness : exists p r, m_run [MNew (KTime 1000) (Some 1%nat) 3 0 0 0 0 0] [] = ([EvStart 1], [Some p]) /\
  fst (p_push 5 9000 (p_reset p)) = [r] /\ rp_count r = 0 /\ rp_value r = 9.
Proof. eexists _, _. split; [reflexivity|]. split; [reflexivity|]. split; reflexivity. Qed.

(** ... but its value enters the data, the extremes and the average: a record with a value and count 0. *)
Definition c52_opts : ropts := mk_ropts 100 4 Adapt Adapt.
Theorem C52_reset_refuted : forall ne, exists ev s r d rd,
  m_run [MNew (KTime 1000) (Some 1%nat) 1 0 0 0 0 0; MReset 0; MDestroy 0 5 9000] [] = (ev, s) /\ ev = [EvStart 1; EvReport r] /\
  r_detach ne (r_add (rp_value r) (rp_count r) (reducer_new c52_opts)) = Ok (Some d, rd) /\
  ad_data d = [9] /\ ad_count d = 0 /\ ad_lossy d = 0 /\ ad_min d = 9.
Proof.
  intros ne. eexists _, _, _, _, _. split; [vm_compute; reflexivity|]. split; [reflexivity|]. split; [vm_compute; reflexivity|]. vm_compute. auto.
Qed.
Print Assumptions C52_reset_refuted.
