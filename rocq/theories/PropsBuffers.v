(** C81, C82: aggregators that share a pool of buffers; the numbers reported by size(data_size, capacity). *)
From Coq Require Import ZArith List Bool Arith Lia Permutation.
From Verif Require Import Base SortFacts ListFacts ModelTypes ModelAvg ModelReducer SpecReducer ReducerProofs ModelSeparator SpecSeparator ModelAggregator SpecAggregator
  ModelBuffers SpecBuffers BufferProofs BufferRun.
Import ListNotations.
Local Open Scope Z_scope.

Lemma bound_exists ops : exists L, limits_at_most L ops.
Proof.
  induction ops as [|op ops [L IH]]; [exists 0%nat; constructor|].
  exists (Nat.max L (match op with BNew o _ _ _ => o_limit (so_red (ao_sep o)) | _ => 0%nat end)). constructor.
  - destruct op; auto. lia.
  - eapply Forall_impl; [|exact IH]. intros [o ? ? ?| |]; auto. lia.
Qed.
Lemma run_from_new ne : same_length ne -> forall item max L ops, limits_at_most L ops ->
  sim (fun '(os, s) '(os', gs) => map (option_map values_of) os = os' /\
         Forall (fun o => match o with Some o => outs_ok (Nat.max (2 * item) L) o | None => True end) os /\ store_is (Nat.max (2 * item) L) item max s gs)
    (b_run ne (b_new item max) ops) (ref_run ne [] ops).
Proof.
  intros NE item max L ops LM. apply (run_sim (Nat.max (2 * item) L) ne NE item max).
  - eapply Forall_impl; [|exact LM]. intros [o ? ? ?| |]; cbn; auto. lia.
  - apply new_is. lia.
Qed.

(** C81 *)
(** Whatever the pool's item_size and pool_size, and however many aggregators share it: every call of every aggregator returns, and hands to
    its handler, the same values as if each aggregator had its own memory; no call touches a deleted buffer. *)
Theorem C81_invisible : forall ne, same_length ne -> forall item max ops,
  results (option_map values_of) (b_run ne (b_new item max) ops) = results (fun o => o) (ref_run ne [] ops).
Proof.
  intros ne NE item max ops. destruct (bound_exists ops) as [L LM]. pose proof (run_from_new ne NE item max L ops LM) as X. unfold results.
  destruct (b_run ne (b_new item max) ops) as [[os s]| |], (ref_run ne [] ops) as [[os' gs]| |]; cbn in *; try contradiction; auto. destruct X as (<- & _). rewrite map_id. reflexivity.
Qed.
Print Assumptions C81_invisible.

(** Every buffer that exists is either a row of exactly one aggregator or in the pool, once; nothing is lost.  The pool has at most pool_size
    buffers, all empty, with room for item_size values. *)
Theorem C81_owned : forall ne, same_length ne -> forall item max ops os s, b_run ne (b_new item max) ops = Ok (os, s) ->
  NoDup (in_use s ++ m_pool (b_mem s)) /\
  (forall b, live b (b_mem s) <-> In b (in_use s ++ m_pool (b_mem s))) /\
  (length (m_pool (b_mem s)) <= max)%nat /\
  (forall b, In b (m_pool (b_mem s)) -> exists c, nth_error (m_heap (b_mem s)) b = Some (Some (mk_vec [] c)) /\ (item <= c <= 2 * item)%nat).
Proof.
  intros ne NE item max ops os s R. destruct (bound_exists ops) as [L LM]. pose proof (run_from_new ne NE item max L ops LM) as X. rewrite R in X.
  destruct (ref_run ne [] ops) as [[os' gs]| |]; cbn in X; try contradiction. destruct X as (_ & _ & [[A B C D _] _] & <- & <-). auto.
Qed.
Print Assumptions C81_owned.

(** When all aggregators are gone, the buffers that remain are those of the pool. *)
Theorem C81_no_leak : forall ne, same_length ne -> forall item max ops os s, b_run ne (b_new item max) ops = Ok (os, s) ->
  Forall (fun g => g = None) (b_aggs s) -> forall b, live b (b_mem s) -> In b (m_pool (b_mem s)).
Proof.
  intros ne NE item max ops os s R N b LV. destruct (C81_owned ne NE item max ops os s R) as (_ & A & _). apply A in LV.
  replace (in_use s) with (@nil nat) in LV; [exact LV|]. unfold in_use. clear - N. induction N as [|g l -> N IH]; [reflexivity|]. exact IH.
Qed.
Print Assumptions C81_no_leak.

(** Two aggregators and a pool of one buffer of 3 places.  The first fills two rows, closes its window (the second row goes to the pool), the
    second aggregator takes that buffer for its own values; the first one is destroyed. *)
Definition bx_o (limit : nat) : aopts := mk_aopts (mk_sopts (mk_ropts limit 3 Adapt Sorting) 10 RSeconds 0) 4.
Definition bx_arr (ts : Z) (vs : list Z) : gop := GoAdd (SmArr ts vs (Z.of_nat (length vs))) 0 0.
Definition bx_ops : list bop :=
  [BNew (bx_o 3) 0 0 100; BNew (bx_o 5) 0 0 100; BCall 0 (bx_arr 101 [7; 5; 6; 9; 8]); BCall 0 (GoSeparate 111 false false 0); BCall 1 (bx_arr 102 [4; 2; 3]); BCall 1 GoCurrent;
   BCall 0 GoPop; BDel 0; BCall 1 GoForcePop].
Lemma ne_rev_length : same_length ne_rev.
Proof. intros k l. destruct (lt_dec k (length l)) as [H|H]; [symmetry; apply Permutation_length, (ne_rev_ok k l H)|].
  unfold ne_rev. rewrite skipn_all2, firstn_all2 by (rewrite isort_length; lia). rewrite app_nil_r, rev_length. apply isort_length.
Qed.
Example C81_witness : exists os s, b_run ne_rev (b_new 3 1) bx_ops = Ok (os, s) /\
  map (fun o => map (fun x => (ad_data (pc_rec x), pc_cap x)) (handed o)) os = [[]; []; []; []; []; [([2; 3; 4], 3%nat)]; [([5; 7; 9], 3%nat)]; []; [([2; 3; 4], 5%nat)]] /\
  (exists s5 os5, b_run ne_rev (b_new 3 1) (firstn 4 bx_ops) = Ok (os5, s5) /\ in_use s5 = [] /\ m_pool (b_mem s5) = [1%nat]) /\
  (exists s6 os6, b_run ne_rev (b_new 3 1) (firstn 5 bx_ops) = Ok (os6, s6) /\ in_use s6 = [1%nat] /\ m_pool (b_mem s6) = []) /\
  in_use s = [] /\ results (option_map values_of) (b_run ne_rev (b_new 3 1) bx_ops) = results (option_map values_of) (b_run ne_rev (b_new 0 0) bx_ops).
Proof.
  eexists _, _. split; [vm_compute; reflexivity|]. vm_compute. repeat split; eexists _, _; repeat split.
Qed.

(** C82 *)
Lemma rows_sums bd lw l m rows d : rows_are bd lw l m rows d ->
  h_sum (fun v => length (v_data v)) rows m = Ok (length (concat d)) /\ h_sum v_cap rows m = Ok (list_sum (map (cap_at m) rows)) /\
  (length (concat d) <= list_sum (map (cap_at m) rows) <= bd * length rows)%nat.
Proof.
  induction 1 as [|b x rows d (c & E & L1 & L2 & L3) R (S1 & S2 & S3)]; cbn [h_sum map concat list_sum fold_right length]; [auto with arith|].
  unfold h_get. rewrite E. cbn [bind v_data v_cap]. rewrite S1, S2. cbn [bind]. assert (EC : cap_at m b = c) by (unfold cap_at; rewrite E; reflexivity). rewrite EC, app_length.
  split; [reflexivity|]. split; [reflexivity|]. unfold list_sum in *. rewrite Nat.mul_succ_r. lia.
Qed.
Lemma recs_sums bd l : Forall (prec_ok bd) l ->
  (sum_of rec_size l <= list_sum (map pc_cap l) <= bd * length l)%nat /\ sum_of pc_cap l = list_sum (map pc_cap l) /\ list_sum (map pc_cap l) = (sum_of rec_size l + spare l)%nat.
Proof.
  unfold spare. induction 1 as [|x l P F (A & B & C)]; cbn [sum_of map list_sum fold_right length]; [lia|]. unfold prec_ok, rec_size in *. unfold sum_of, list_sum in *. rewrite Nat.mul_succ_r. lia.
Qed.
Lemma fold_sum (l : list prec) n : fold_right (fun a n => length (ad_data a) + n)%nat n (map pc_rec l) = (sum_of rec_size l + n)%nat.
Proof. induction l as [|x l IH]; cbn; [reflexivity|]. rewrite IH. unfold rec_size, sum_of. lia. Qed.

(** size(data_size, capacity) adds to data_size exactly the number of values held; the number added to capacity is at least that and at most
    the places held, and it misses exactly the unused places of the finished records.  The places held are at most max(2*item_size,
    reducer_limit) per vector. *)
Theorem C82_size_partial : forall ne, same_length ne -> forall item max L ops os s os' gs i g g', limits_at_most L ops ->
  b_run ne (b_new item max) ops = Ok (os, s) -> ref_run ne [] ops = Ok (os', gs) ->
  nth_error (b_aggs s) i = Some (Some g) -> nth_error gs i = Some (Some g') ->
  exists d c, a_size g (b_mem s) = Ok (d, c) /\ d = g_data_size g' /\ (d <= c)%nat /\ held g (b_mem s) = (c + spare (a_list g))%nat /\
              (held g (b_mem s) <= Nat.max (2 * item) L * vectors g)%nat.
Proof.
  intros ne NE item max L ops os s os' gs i g g' LM R RR N N'. pose proof (run_from_new ne NE item max L ops LM) as X. rewrite R, RR in X. destruct X as (_ & _ & [[_ F] _]).
  destruct (Forall2_at _ _ _ _ _ F N) as (l1 & l2 & k1 & k2 & y & _ & -> & _ & L2 & _ & A & _). rewrite <- L2, nth_mid in N'. injection N' as ->. cbn in A.
  destruct A as (s' & (r & (d & RW & -> & LB & LV) & -> & LO) & -> & AO). destruct (rows_sums _ _ _ _ _ _ RW) as (S1 & S2 & S3).
  destruct (recs_sums _ _ LO) as (A1 & A2 & A3), (recs_sums _ _ AO) as (B1 & B2 & B3). unfold a_size, t_size. rewrite S1, S2. cbn [bind]. eexists _, _. split; [reflexivity|].
  unfold g_data_size, s_data_size, held, vectors, r_size. cbn [g_sep g_list s_red s_list set_data r_data]. rewrite !fold_sum. split; [lia|]. split; [lia|]. split; [lia|].
  rewrite !Nat.mul_add_distr_l. lia.
Qed.
Print Assumptions C82_size_partial.

(** The vector of a record that is handed out has at most that many places. *)
Theorem C82_records : forall ne, same_length ne -> forall item max L ops os s, limits_at_most L ops -> b_run ne (b_new item max) ops = Ok (os, s) ->
  Forall (fun o => Forall (fun x => length (ad_data (pc_rec x)) <= pc_cap x <= Nat.max (2 * item) L)%nat (handed o)) os.
Proof.
  intros ne NE item max L ops os s LM R. pose proof (run_from_new ne NE item max L ops LM) as X. rewrite R in X. destruct (ref_run ne [] ops) as [[os' gs]| |]; cbn in X; try contradiction.
  destruct X as (_ & O & _). eapply Forall_impl; [|exact O]. intros [o|] H; [|constructor]. destruct H as [H1 H2]. cbn. apply Forall_app. split; [exact H1|]. destruct (po_popped o); constructor; [exact H2|constructor].
Qed.
Print Assumptions C82_records.

(** A user who adds up capacity to learn the memory in use is misled: a finished record of one value, reported as 1 place, holds 3. *)
Theorem C82_capacity_refuted : exists ne item max ops os s g, nth_element_ok ne /\ b_run ne (b_new item max) ops = Ok (os, s) /\ b_aggs s = [Some g] /\
  a_size g (b_mem s) = Ok (2, 4)%nat /\ held g (b_mem s) = 6%nat.
Proof.
  exists ne_rev, 3%nat, 1%nat, [BNew (bx_o 3) 0 0 100; BCall 0 (bx_arr 101 [7]); BCall 0 (bx_arr 111 [1])]. eexists _, _, _. split; [exact ne_rev_ok|].
  split; [vm_compute; reflexivity|]. vm_compute. auto.
Qed.
Print Assumptions C82_capacity_refuted.

Definition cx_ops : list bop := firstn 6 bx_ops ++ [BCall 0 (bx_arr 112 [1])].
Example C82_witness : exists os s os' gs g g', limits_at_most 5 (cx_ops) /\ b_run ne_rev (b_new 3 1) (cx_ops) = Ok (os, s) /\ ref_run ne_rev [] (cx_ops) = Ok (os', gs) /\
  nth_error (b_aggs s) 0 = Some (Some g) /\ nth_error gs 0 = Some (Some g') /\ a_size g (b_mem s) = Ok (4, 6)%nat /\ vectors g = 2%nat.
Proof.
  eexists _, _, _, _, _, _. split; [unfold limits_at_most; cbn; repeat constructor|]. do 2 (split; [vm_compute; reflexivity|]). vm_compute. auto 10.
Qed.

(** A buffer of the pool can have more places than item_size: aggregate_current() copies a row of 4 values without spare room, and the pool
    of item_size 5 enlarges the copy to 8. *)
Example C82_larger_witness : exists os s b v, b_run ne_rev (b_new 5 2) [BNew (bx_o 5) 0 0 100; BCall 0 (bx_arr 101 [1; 2; 3; 4; 5; 6; 7; 8; 9]); BCall 0 GoCurrent] = Ok (os, s) /\
  m_pool (b_mem s) = [b] /\ nth_error (m_heap (b_mem s)) b = Some (Some v) /\ v_cap v = 8%nat.
Proof. eexists _, _, _, _. split; [vm_compute; reflexivity|]. vm_compute. auto. Qed.
