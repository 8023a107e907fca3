(** Properties C76-C78: a multi_aggregator used by several threads. *)
From Coq Require Import ZArith List Bool Arith Lia Ascii Permutation.
From Verif Require Import ModelLocks PropsLocks.
From Verif Require Import Base SortFacts ModelTypes ModelReducer SpecReducer ModelSeparator SpecSeparator SepSpecProofs SepRun ReducerProofs ListFacts ModelAggregator SpecAggregator AggProofs AggRun AggFinal AggSafe RegFinal
  ModelRegistry SpecRegistry RegProofs ModelMt ModelMulti SpecMulti MultiProofs MultiRun SpecSystem SystemProofs SpecRelay RelayProofs
  ModelShards SpecShards ShardProofs ShardRun ShardTotal PropsReducer PropsSeparator PropsAggregator PropsRegistry PropsMulti.
Import ListNotations ModelMt.
Local Open Scope Z_scope.

(** The program of every thread, as critical sections; the shards of a new multi_aggregator. *)
Definition programs (o : maopts) (ps : list (list mop)) : list (list sec) := map (flat_map (secs (ma_hash o))) ps.
Definition new_shards (o : maopts) : list (outcome bmulti) := repeat (Ok []) (ma_hash o).
(** [log] explains state [s] of threads making the calls [ps] on a new multi_aggregator. *)
Definition multi_explains (ne : nat -> list Z -> list Z) (hash : name -> Z) (o : maopts) (ps : list (list mop)) (log : list (nat * (sec * outcome mout)))
    (s : hstate (outcome bmulti) sec (outcome mout)) : Prop := explains (sec_at hash o) (sec_run ne o) (new_shards o) (programs o ps) log s.
(** Nobody is in the shard of [n]. *)
Definition free_of (hash : name -> Z) (o : maopts) (n : name) (s : hstate (outcome bmulti) sec (outcome mout)) : Prop :=
  forall i t, nth_error (h_threads s) i = Some t -> ~ In (shard_of hash o n) (map (sec_at hash o) (running t)).

(* ---- proof ---- *)
Lemma in_turn_ext {S C R} (at_ : C -> nat) (f g : C -> S -> R * S) : (forall c s, f c s = g c s) -> forall os l os', in_turn at_ f os l os' -> in_turn at_ g os l os'.
Proof. intros E os l os'. induction 1 as [|os c r o o' t os' A B D IH]; econstructor; eauto. now rewrite <- E. Qed.
Lemma explains_ext {S C R} (at_ : C -> nat) (f g : C -> S -> R * S) os ps log (s : hstate S C R) : (forall c x, f c x = g c x) -> explains at_ f os ps log s -> explains at_ g os ps log s.
Proof. intros E (A & B & D & os' & F & G). split; auto. split; auto. split; auto. exists os'. split; auto. eapply in_turn_ext; eauto. Qed.
Lemma new_shards_map o : new_shards o = map Ok (mu_list (ma_new o)).
Proof. unfold new_shards, ma_new. cbn [mu_list]. generalize (ma_hash o) as k. induction k as [|k IH]; simpl; [reflexivity|]. now rewrite IH. Qed.
Lemma new_multi o : mk_multi o (mu_list (ma_new o)) = ma_new o.
Proof. reflexivity. Qed.
Lemma in_by_thread {C R} (log : list (nat * (C * R))) i x : In (i, x) log -> In x (by_thread i log).
Proof. intros H. unfold by_thread. apply in_map_iff. exists (i, x). split; auto. apply filter_In. split; auto. cbn. apply Nat.eqb_refl. Qed.
Section Logs.
  Variable ne : nat -> list Z -> list Z.
  Variable hash : name -> Z.
  Variable o : maopts.
  Lemma log_sections ps log s (P : sec -> Prop) : multi_explains ne hash o ps log s -> Forall (fun op => Forall P (secs (ma_hash o) op)) (concat ps) ->
    Forall (fun x => P (fst x)) (map snd log).
  Proof.
    intros (L & PR & TH & _) F. apply Forall_map, Forall_forall. intros [i [c r]] Hx. cbn [snd fst]. specialize (TH _ Hx). cbn [fst] in TH.
    destruct (nth_error (programs o ps) i) as [p|] eqn:EP; [|apply nth_error_None in EP; lia].
    destruct (nth_error (h_threads s) i) as [t|] eqn:ET; [|apply nth_error_None in ET; lia].
    destruct (PR _ _ _ ET EP) as [PP _]. apply in_by_thread in Hx. assert (IN : In c p). { rewrite <- PP. apply in_or_app. left. apply in_map_iff. exists (c, r). auto. }
    unfold programs in EP. rewrite nth_error_map in EP. destruct (nth_error ps i) as [q|] eqn:EQ; [|discriminate]. injection EP as <-. apply in_flat_map in IN as (op & I1 & I2).
    rewrite Forall_forall in F. specialize (F op). rewrite Forall_forall in F. apply F; auto. apply in_concat. exists q. split; auto. eapply nth_error_In; eauto.
  Qed.
  Lemma log_turns ps log s l : multi_explains ne hash o ps log s -> defined log l ->
    exists bs, turns ne hash o (mu_list (ma_new o)) l bs /\ forall n, free_of hash o n s -> nth_error (h_objs s) (shard_of hash o n) = nth_error (map Ok bs) (shard_of hash o n).
  Proof.
    intros (_ & _ & _ & os & IT & OB) D. unfold defined in D. rewrite D, new_shards_map in IT. apply turns_ok in IT as (bs & -> & T). exists bs. split; [exact T|]. intros n Fr. apply OB. exact Fr.
  Qed.
  Lemma log_order ps log s l : multi_explains ne hash o ps log s -> defined log l -> Forall order_ok (concat ps) -> Forall (fun x => sec_order_ok (fst x)) l.
  Proof.
    intros E D F. unfold defined in D. assert (X := log_sections ps log s sec_order_ok E). rewrite D in X. rewrite Forall_map in X. cbn [fst] in X.
    apply X. eapply Forall_impl; [|exact F]. intros op. apply secs_order.
  Qed.
End Logs.
Lemma turns_in ne hash o bs l bs' : turns ne hash o bs l bs' -> in_turn (sec_at hash o) (sec_run ne o) (map Ok bs) (map (fun x => (fst x, Ok (snd x))) l) (map Ok bs').
Proof.
  induction 1 as [|bs c r b b' t bs' E D T IH]; [constructor|]. cbn [map fst snd]. econstructor; [rewrite nth_error_map, E; reflexivity|cbn [sec_run]; rewrite D; reflexivity|].
  rewrite set_nth_map. exact IH.
Qed.
Lemma turns_split ne hash o l1 l2 : forall bs bs', turns ne hash o bs (l1 ++ l2) bs' -> exists bs1, turns ne hash o bs l1 bs1 /\ turns ne hash o bs1 l2 bs'.
Proof.
  induction l1 as [|x l1 IH]; intros bs bs' H; cbn [app] in H; [exists bs; split; [constructor|auto]|].
  inversion H as [|? ? ? b b' ? ? Hn Hd T]; subst. apply IH in T as (bs1 & A & B). exists bs1. split; auto. econstructor; eauto.
Qed.
Lemma quiet_turns ne hash o n bs l bs' : turns ne hash o bs l bs' -> MInv hash o (mk_multi o bs) -> Forall (fun x => sec_order_ok (fst x)) l ->
  Forall (fun x => sec_call hash o n (fst x) = None) l -> sec_fed n l = [] /\ sec_given n l = [].
Proof.
  induction 1 as [bs|bs c r b b' t bs' E D T IH]; intros I LO Q; [split; reflexivity|]. inversion LO; subst. inversion Q; subst. cbn [fst] in *.
  destruct (sec_sim ne hash o bs c r b b' n I H1 E D) as [J K]. rewrite H3 in K. destruct K as [_ K]. destruct (IH J H2 H4) as [A B].
  unfold sec_fed, sec_given in *. cbn [flat_map fst snd]. rewrite of_name_app, K, A, B, app_nil_r. split; auto. destruct c; cbn in *; auto. destruct (name_eqb n n0); [discriminate|auto].
Qed.

(** * C76 *)
(** Any number of threads making any calls, any interleaving of the statements of the critical sections, however these are divided into
    statements: at any moment the finished sections can be put in an order that explains the state, and this order only grows: what has happened
    by [s1] stays before what happens later. *)
Theorem C76_atomic : forall ne hash o (body : sec -> prog (outcome bmulti) (outcome mout)),
  (forall c s, eval (body c) s = sec_run ne o c s) ->
  forall ps s1 s2, hsteps (sec_at hash o) body (h_start o ps) s1 -> hsteps (sec_at hash o) body s1 s2 ->
  exists log1 log2, multi_explains ne hash o ps log1 s1 /\ multi_explains ne hash o ps (log1 ++ log2) s2.
Proof.
  intros ne hash o body HB ps s1 s2 H1 H2. destruct (steps_hinv _ _ _ _ _ _ _ (init_hinv (sec_at hash o) body (new_shards o) (programs o ps)) H1) as [log1 I1]. cbn [app] in I1.
  destruct (steps_hinv _ _ _ _ _ _ _ I1 H2) as [log2 I2]. exists log1, log2.
  split; (eapply explains_ext; [exact HB|]; now apply hinv_explains).
Qed.
Print Assumptions C76_atomic.

(** The sections of a call, made one after the other without anybody in between, are the call of the sequential model. *)
Theorem C76_sections : forall ne hash o ops outs m op out m', (0 < ma_hash o)%nat -> Forall order_ok ops -> ma_run ne hash (ma_new o) ops = Ok (outs, m) ->
  ma_do ne hash op m = Ok (out, m') ->
  exists rs, length rs = length (secs (ma_hash o) op) /\ out = answer op rs /\
    in_turn (sec_at hash o) (sec_run ne o) (map Ok (mu_list m)) (combine (secs (ma_hash o) op) (map Ok rs)) (map Ok (mu_list m')).
Proof.
  intros ne hash o ops outs m op out m' HP HO R E. destruct (ma_run_sim ne hash o ops _ _ _ (MInv_new hash o HP) HO R) as [I _]. pose proof (mi_opt _ _ _ I) as EO. destruct m as [o1 bs]. cbn in EO. subst o1.
  destruct (call_turns ne hash o op bs out m' I E) as (rs & T & L & A). exists rs. split; auto. split; auto. apply turns_in in T. cbn [mu_list].
  replace (combine (secs (ma_hash o) op) (map Ok rs)) with (map (fun x : sec * mout => (fst x, Ok (snd x))) (combine (secs (ma_hash o) op) rs)); auto.
  clear. generalize (secs (ma_hash o) op) as cs. revert rs. induction rs as [|r rs IH]; intros [|c cs]; cbn; auto. now rewrite IH.
Qed.
Print Assumptions C76_sections.

(** Safe calls never fail, whatever the interleaving. *)
Theorem C76_total : forall ne, nth_element_ok ne -> forall hash o, (0 < ma_hash o)%nat -> 0 < so_step (ao_sep (ma_agg o)) <= i64_max ->
  forall ps log s, Forall order_ok (concat ps) -> Forall (mop_safe (ma_agg o)) (concat ps) -> Z.of_nat (length (flat_map mop_values (concat ps))) < two64 ->
  multi_explains ne hash o ps log s -> exists l, defined log l.
Proof.
  intros ne Hne hash o HP Hs ps log s HO HS L E. assert (E0 := E). destruct E as (LT & PR & TH & os & IT & _). rewrite new_shards_map in IT. unfold defined.
  eapply (in_turn_total ne Hne hash o HP Hs (map snd log) _ 0%nat os); [|apply Forall_and| |exact IT].
  - split; [apply MInv_new; auto|]. intros n g G. rewrite new_multi, get_new in G. discriminate.
  - eapply log_sections; [exact E0|]. eapply Forall_impl; [|exact HO]. intros op. apply secs_order.
  - eapply log_sections; [exact E0|]. eapply Forall_impl; [|exact HS]. intros op. apply secs_safe.
  - cbn [Nat.add]. eapply Z.le_lt_trans; [|exact L]. apply Nat2Z.inj_le.
    rewrite (total_threads _ (length ps)) by (intros x Hx; specialize (TH x Hx); unfold programs in TH; now rewrite map_length in TH).
    assert (LS : forall (p : list sec), list_sum (map (fun c => length (sec_values c)) p) = length (flat_map sec_values p)) by (induction p; simpl; rewrite ?app_length; auto).
    replace (length (flat_map mop_values (concat ps))) with (list_sum (map (fun i => length (flat_map mop_values (nth i ps []))) (seq 0 (length ps)))).
    + apply list_sum_le. intros i Hi. apply in_seq in Hi. destruct (nth_error ps i) as [q|] eqn:EQ; [|apply nth_error_None in EQ; lia].
      rewrite (nth_error_nth _ _ _ EQ). assert (EP : nth_error (programs o ps) i = Some (flat_map (secs (ma_hash o)) q)) by (unfold programs; rewrite nth_error_map, EQ; reflexivity).
      destruct (nth_error (h_threads s) i) as [t|] eqn:ET; [|apply nth_error_None in ET; unfold programs in LT; rewrite map_length in LT; lia].
      destruct (PR _ _ _ ET EP) as [PP _].
      replace (length (flat_map mop_values q)) with (length (flat_map sec_values (flat_map (secs (ma_hash o)) q))).
      * rewrite <- PP, flat_map_app, app_length, <- LS. unfold total. rewrite map_map. lia.
      * clear. induction q as [|op q IH]; cbn [flat_map]; auto. rewrite flat_map_app, !app_length, IH, secs_values. reflexivity.
    + rewrite (sum_nth (fun p => length (flat_map mop_values p))). clear. induction ps as [|p ps IH]; cbn [concat map list_sum fold_right]; auto. rewrite flat_map_app, app_length, <- IH. reflexivity.
Qed.
Print Assumptions C76_total.

(** What a thread is told about a name, and the aggregator kept for it, depend on the sections about this name alone, in their order. *)
Theorem C76_per_name : forall ne hash o ps log s l n, (0 < ma_hash o)%nat -> Forall order_ok (concat ps) ->
  multi_explains ne hash o ps log s -> defined log l ->
  exists c, krun ne (ma_agg o) None (map fst (sec_project hash o n l)) = Ok (map snd (sec_project hash o n l), c) /\
    (free_of hash o n s -> exists b, nth_error (h_objs s) (shard_of hash o n) = Some (Ok b) /\ bm_find n b = c).
Proof.
  intros ne hash o ps log s l n HP HO E D. destruct (log_turns ne hash o ps log s l E D) as (bs & T & OB). pose proof (log_order ne hash o ps log s l E D HO) as LO.
  pose proof (turns_name ne hash o n _ _ _ T (MInv_new hash o HP) LO) as K. rewrite new_multi, get_new in K. eexists. split; [exact K|]. intros Fr. rewrite (OB n Fr).
  assert (LB : length bs = ma_hash o). { transitivity (length (mu_list (ma_new o))); [|exact (mi_len _ _ _ (MInv_new hash o HP))]. clear - T. induction T as [|? ? ? ? ? ? ? A B C IH]; auto. rewrite IH. apply set_nth_length. }
  rewrite nth_error_map. unfold ma_get. cbn [mu_list]. destruct (nth_error bs (shard_of hash o n)) as [b|] eqn:EB.
  - exists b. auto.
  - exfalso. apply nth_error_None in EB. pose proof (shard_lt hash o n HP). lia.
Qed.
Print Assumptions C76_per_name.

(** The records handed out for a name, by all threads together, are windows over distinct records pushed under it, whatever the interleaving
    and the timestamps. *)
Theorem C76_nothing_invented : forall ne, nth_element_ok ne -> forall hash o ps log s l n, (0 < ma_hash o)%nat -> 0 < so_step (ao_sep (ma_agg o)) ->
  Forall order_ok (concat ps) -> multi_explains ne hash o ps log s -> defined log l -> Forall fed_typed (sec_fed n l) ->
  exists (groups : list (Z * list rop)) rest, Forall2 (fun q d => reported_as ne (so_red (ao_sep (ma_agg o))) (fst q) (snd q) d) groups (sec_given n l) /\
    Permutation (flat_map snd groups ++ rest) (map OpAddRed (sec_fed n l)) /\ submultiset (flat_map ad_data (sec_given n l)) (flat_map rd_data (sec_fed n l)).
Proof.
  intros ne Hne hash o ps log s l n HP Hs HO E D TY. destruct (log_turns ne hash o ps log s l E D) as (bs & T & _). pose proof (log_order ne hash o ps log s l E D HO) as LO.
  destruct (turns_inv ne hash o Hne Hs false n _ _ _ T [] [] (so_step (ao_sep (ma_agg o))) (MInv_new hash o HP) LO) as [_ (groups & lost & held & F & _ & P & _)]; auto.
  - rewrite new_multi, get_new. apply cinv_none; lia.
  - discriminate.
  - exists groups, (held ++ lost). split; [exact F|]. split; [exact P|]. rewrite <- values_red. cbn [app] in P. pose proof (wsub ne Hne _ _ _ F) as W. eapply submultiset_trans; [exact W|].
    exists (values (held ++ lost)). apply values_perm in P. rewrite <- P. unfold values. rewrite (flat_map_app op_values (all_ops groups)). reflexivity.
Qed.
Print Assumptions C76_nothing_invented.

(** If the records of a name come in the order of their timestamps, nobody deletes the name, and the last thing that happens to its shard is a
    force_pushout, then the records handed out, to whichever thread, stand for every record pushed exactly once. *)
Theorem C76_nothing_lost : forall ne, nth_element_ok ne -> forall hash o ps log s l l1 h ord r l2 n, (0 < ma_hash o)%nat -> 0 < so_step (ao_sep (ma_agg o)) ->
  Forall order_ok (concat ps) -> multi_explains ne hash o ps log s -> defined log l ->
  l = l1 ++ (SPop true h ord (shard_of hash o n), r) :: l2 -> Forall (fun x => sec_call hash o n (fst x) = None) l2 ->
  ~ In (SDel n) (map fst l) -> Forall fed_typed (sec_fed n l) -> forward (so_step (ao_sep (ma_agg o))) (map fed_time (sec_fed n l)) ->
  (exists groups : list (Z * list rop), Permutation (flat_map snd groups) (map OpAddRed (sec_fed n l)) /\
     Forall2 (fun q d => reported_as ne (so_red (ao_sep (ma_agg o))) (fst q) (snd q) d) groups (sec_given n l)) /\
  u64 (sum_count (sec_given n l)) = u64 (fold_right Z.add 0 (map (fun d => ri_count (rd_info d)) (sec_fed n l))).
Proof.
  intros ne Hne hash o ps log s l l1 h ord r l2 n HP Hs HO E D -> QU ND TY FW. destruct (log_turns ne hash o ps log s _ E D) as (bs & T & _). pose proof (log_order ne hash o ps log s _ E D HO) as LO.
  apply turns_split in T as (bs1 & T1 & T2). apply Forall_app in LO as [LO1 LO2]. rewrite map_app in ND.
  inversion T2 as [|? ? ? b b' ? ? Hn Hd T3]; subst. inversion LO2 as [|? ? O2 O3]; subst. cbn [fst] in O2.
  assert (EF : sec_fed n (l1 ++ (SPop true h ord (shard_of hash o n), r) :: l2) = sec_fed n l1 ++ sec_fed n l2) by (unfold sec_fed; now rewrite flat_map_app).
  assert (EG : sec_given n (l1 ++ (SPop true h ord (shard_of hash o n), r) :: l2) = sec_given n l1 ++ of_name n (mrecs r) ++ sec_given n l2).
  { unfold sec_given. rewrite flat_map_app, of_name_app. cbn [flat_map snd]. now rewrite of_name_app. }
  rewrite EF in *. rewrite map_app in FW. apply Forall_app in TY as [TY1 _]. apply forward_app in FW as [FW1 _].
  destruct (turns_inv ne hash o Hne Hs true n _ _ _ T1 [] [] (so_step (ao_sep (ma_agg o))) (MInv_new hash o HP) LO1) as [I1 C1]; auto.
  { rewrite new_multi, get_new. apply cinv_none; lia. }
  { intros _. split; auto. intros H. apply ND, in_or_app. now left. }
  cbn [app] in C1. destruct (sec_sim ne hash o bs1 _ r b b' n I1 O2 Hn Hd) as [I2 K]. cbn [sec_call] in K. rewrite Nat.eqb_refl in K.
  destruct (quiet_turns ne hash o n _ _ _ T3 I2 O3 QU) as [Q1 Q2]. rewrite EG, Q1, Q2, !app_nil_r.
  assert (X : exists groups, Forall2 (wrel ne (so_red (ao_sep (ma_agg o)))) groups (sec_given n l1 ++ of_name n (mrecs r)) /\ Permutation (all_ops groups) (map OpAddRed (sec_fed n l1))).
  { cbn [sec_do] in Hd. destruct (bm_pushout ne true h ord b) as [[lo b1]| |]; cbn [bind] in Hd; try discriminate. injection Hd as <- <-. cbn [sec_view mrecs] in *.
    cbn [kdo] in K. change (pop_call true) with GoForcePop in K. destruct (ma_get hash o (mk_multi o bs1) n) as [g|].
    - destruct (g_call ne GoForcePop g) as [[r1 g1]| |] eqn:EC; cbn [bind] in K; try discriminate. injection K as <- _. eapply flushed; eauto.
    - injection K as <- _. rewrite app_nil_r. destruct C1 as (groups & lost & held & F & -> & P & HL). destruct (HL eq_refl) as [-> _]. rewrite !app_nil_r in P. eauto. }
  destruct X as (groups & F & P). split; [exists groups; auto|]. rewrite (wsum_count ne Hne _ _ _ F), (declared_perm _ _ P), declared_red. reflexivity.
Qed.
Print Assumptions C76_nothing_lost.

(** Nobody is ever in a shard together with somebody else: the handlers of one shard run one after the other. *)
Theorem C76_exclusive : forall hash o (body : sec -> prog (outcome bmulti) (outcome mout)) ps s, hsteps (sec_at hash o) body (h_start o ps) s ->
  forall i j t u c d, nth_error (h_threads s) i = Some t -> nth_error (h_threads s) j = Some u -> In c (running t) -> In d (running u) ->
  sec_at hash o c = sec_at hash o d -> i = j.
Proof.
  intros hash o body ps s H i j t u c d Hi Hj Hc Hd EQ. destruct (steps_hinv _ _ _ _ _ _ _ (init_hinv (sec_at hash o) body (new_shards o) (programs o ps)) H) as [log I]. cbn [app] in I.
  assert (A : exists p, at_shard (sec_at hash o) (h_threads s) i (sec_at hash o c) c p).
  { unfold running in Hc. destruct (inside t) as [[c0 p]|] eqn:E; [|destruct Hc]. destruct Hc as [<-|[]]. exists p, t. auto. }
  assert (B : exists p, at_shard (sec_at hash o) (h_threads s) j (sec_at hash o c) d p).
  { unfold running in Hd. destruct (inside u) as [[c0 p]|] eqn:E; [|destruct Hd]. destruct Hd as [<-|[]]. exists p, u. rewrite EQ. auto. }
  destruct A as [p A], B as [q B]. pose proof (hi_in _ _ _ _ _ _ I _ _ _ _ A) as L. destruct (hi_seq _ _ _ _ _ _ I) as (os & _ & M).
  destruct (M _ L) as [(_ & _ & N)|(_ & i0 & c0 & p0 & o0 & ol & _ & _ & _ & _ & U)]; [destruct (N _ _ _ A)|]. rewrite (U _ _ _ A), (U _ _ _ B). reflexivity.
Qed.
Print Assumptions C76_exclusive.

(** ** Examples *)
(** A section in two statements: the shard is read, then written. *)
Definition two_steps (ne : nat -> list Z -> list Z) (o : maopts) (c : sec) : prog (outcome bmulti) (outcome mout) :=
  Do (fun s => let '(r, s') := sec_run ne o c s in (s, Do (fun _ => (s', Ret r)))).
Example C76_witness_body : forall ne o c s, eval (two_steps ne o c) s = sec_run ne o c s.
Proof. intros ne o c s. cbn. destruct (sec_run ne o c s) as [r s']. reflexivity. Qed.
(** Scheduling by thread number *)
Definition hrun1 {S C R} (at_ : C -> nat) (body : C -> prog S R) (i : nat) (s : hstate S C R) : option (hstate S C R) :=
  match nth_error (h_threads s) i with
  | None => None
  | Some t =>
      let put k os t' := Some (mk_hstate k os (set_nth i t' (h_threads s))) in
      match inside t, todo t with
      | None, [] => None
      | None, c :: cs => match nth_error (h_locks s) (at_ c) with
                         | Some false => put (set_nth (at_ c) true (h_locks s)) (h_objs s) (mk_mthread cs (Some (c, body c)) (got t))
                         | _ => None
                         end
      | Some (c, Do f), cs => match nth_error (h_objs s) (at_ c) with
                              | Some o => let '(o', p') := f o in put (h_locks s) (set_nth (at_ c) o' (h_objs s)) (mk_mthread cs (Some (c, p')) (got t))
                              | None => None
                              end
      | Some (c, Ret r), cs => put (set_nth (at_ c) false (h_locks s)) (h_objs s) (mk_mthread cs None (got t ++ [r]))
      end
  end.
Fixpoint hrun {S C R} (at_ : C -> nat) (body : C -> prog S R) (l : list nat) (s : hstate S C R) : option (hstate S C R) :=
  match l with [] => Some s | i :: r => match hrun1 at_ body i s with None => None | Some s' => hrun at_ body r s' end end.
Lemma hrun_steps {S C R} (at_ : C -> nat) (body : C -> prog S R) l : forall s0 s s', hsteps at_ body s0 s -> hrun at_ body l s = Some s' -> hsteps at_ body s0 s'.
Proof.
  induction l as [|i l IH]; intros s0 s s' H E; cbn in E; [injection E as <-; exact H|].
  destruct (hrun1 at_ body i s) as [s1|] eqn:E1; [|discriminate]. apply (IH s0 s1 s'); [|exact E]. econstructor; [exact H|].
  unfold hrun1 in E1. destruct s as [k os ts]. cbn [h_threads h_locks h_objs] in E1.
  destruct (nth_error ts i) as [[td ins g]|] eqn:N; [|discriminate].
  cbn [inside todo got] in E1. destruct ins as [[c [r|f]]|].
  - injection E1 as <-. eapply h_return; eauto.
  - destruct (nth_error os (at_ c)) as [o|] eqn:EO; [|discriminate]. destruct (f o) as [o' p'] eqn:F. injection E1 as <-. eapply h_body; eauto.
  - destruct td as [|c td]; [discriminate|]. destruct (nth_error k (at_ c)) as [[]|] eqn:EK; try discriminate. injection E1 as <-. eapply h_acquire; eauto.
Qed.
Definition answers {S C R} (s : hstate S C (outcome R)) : list (list R) := map (fun t => flat_map (fun r => match r with Ok x => [x] | _ => [] end) (got t)) (h_threads s).
Definition hx_run (ps : list (list mop)) (l : list nat) : option (hstate (outcome bmulti) sec (outcome mout)) := hrun (sec_at mx_hash mx_o) (two_steps ne_rev mx_o) l (h_start mx_o ps).
(** What a thread has got, by name and count. *)
Definition told (l : list mout) : list (list (name * Z)) := map (fun r => map (fun p => (fst p, ad_count (snd p))) (mrecs r)) l.

(** The log of sections made in this order. *)
Fixpoint turn_log (ne : nat -> list Z -> list Z) (hash : name -> Z) (o : maopts) (cs : list (nat * sec)) (os : list (outcome bmulti)) : option (list (nat * (sec * outcome mout)) * list (outcome bmulti)) :=
  match cs with
  | [] => Some ([], os)
  | (i, c) :: t =>
      match nth_error os (sec_at hash o c) with
      | Some b => let '(r, b') := sec_run ne o c b in
          match turn_log ne hash o t (set_nth (sec_at hash o c) b' os) with Some (l, os') => Some ((i, (c, r)) :: l, os') | None => None end
      | None => None
      end
  end.
Lemma turn_log_ok ne hash o cs : forall os log os', turn_log ne hash o cs os = Some (log, os') -> in_turn (sec_at hash o) (sec_run ne o) os (map snd log) os'.
Proof.
  induction cs as [|[i c] cs IH]; intros os log os' E; cbn [turn_log] in E; [injection E as <- <-; constructor|].
  destruct (nth_error os (sec_at hash o c)) as [b|] eqn:EN; [|discriminate]. destruct (sec_run ne o c b) as [r b'] eqn:ER.
  destruct (turn_log ne hash o cs _) as [[l os1]|] eqn:ET; [|discriminate]. injection E as <- <-. cbn [map snd]. econstructor; eauto.
Qed.

(** Two threads: one pushes "a" and flushes, the other pushes "a" and "dd" together. *)
Definition hx_id : list name -> list name := fun l => l.
Definition hx_ps : list (list mop) :=
  [[MPush mx_e na (mx_d 108 4) true; MPushout true true hx_id]; [MMulti [(mx_e, (na, mx_d 113 7)); (mx_e, (nd, mx_d 125 8))] true]].
Definition hx_turns : list (nat * sec) :=
  [(0, SPush mx_e na (mx_d 108 4) true); (1, SPush mx_e na (mx_d 113 7) true); (0, SPop true true hx_id 0);
   (1, SPush mx_e nd (mx_d 125 8) true); (0, SPop true true hx_id 1); (0, SPop true true hx_id 2)]%nat.
Definition hx_log : list (nat * (sec * outcome mout)) := match turn_log ne_rev mx_hash mx_o hx_turns (new_shards mx_o) with Some (l, _) => l | None => [] end.
Definition hx_sched1 : list nat := [0; 0; 0; 0; 1; 1; 1; 1; 1; 1; 0; 0; 0; 0; 0; 0]%nat.
Definition hx_sched2 : list nat := [1; 1; 0; 0; 0; 0; 0; 0]%nat.
(** Halfway both are inside, in different shards; at the end every record pushed is accounted for: the record of the window of 108 goes to the
    second thread (its push closes the window), the others to the first. *)
Example C76_witness : exists s1 s2, hsteps (sec_at mx_hash mx_o) (two_steps ne_rev mx_o) (h_start mx_o hx_ps) s1 /\
  hsteps (sec_at mx_hash mx_o) (two_steps ne_rev mx_o) s1 s2 /\
  map (fun t => map (sec_at mx_hash mx_o) (running t)) (h_threads s1) = [[1]; [2]]%nat /\
  Forall (fun t => todo t = [] /\ inside t = None) (h_threads s2) /\
  map told (answers s2) = [[[]; []; [(na, 3)]; [(nd, 3)]]; [[(na, 3)]; []]] /\
  multi_explains ne_rev mx_hash mx_o hx_ps hx_log s2 /\
  exists l, defined hx_log l /\ sec_fed na l = [mx_d 108 4; mx_d 113 7] /\ ~ In (SDel na) (map fst l) /\
    forward (so_step (ao_sep (ma_agg mx_o))) (map fed_time (sec_fed na l)) /\ sum_count (sec_given na l) = 6 /\
    Forall order_ok (concat hx_ps) /\
    exists l1 h ord r l2, l = l1 ++ (SPop true h ord (shard_of mx_hash mx_o na), r) :: l2 /\ Forall (fun x => sec_call mx_hash mx_o na (fst x) = None) l2.
Proof.
  eexists _, _. split; [eapply hrun_steps with (l := hx_sched1); [apply hs_refl|vm_compute; reflexivity]|].
  split; [eapply hrun_steps with (l := hx_sched2); [apply hs_refl|vm_compute; reflexivity]|].
  split; [vm_compute; reflexivity|]. split; [repeat constructor|]. split; [vm_compute; reflexivity|]. split; [|].
  - split; [reflexivity|]. split; [|split].
    + intros i t p Ht Hp. destruct i as [|[|i]]; [| |destruct i; discriminate Hp]; injection Ht as <-; injection Hp as <-; split; vm_compute; reflexivity.
    + intros x Hx. vm_compute in Hx. repeat (destruct Hx as [<-|Hx]; [vm_compute; lia|]). destruct Hx.
    + eexists. split; [apply (turn_log_ok ne_rev mx_hash mx_o hx_turns); vm_compute; reflexivity|]. intros j _. vm_compute. reflexivity.
  - exists (flat_map (fun x => match snd (snd x) with Ok r => [(fst (snd x), r)] | _ => [] end) hx_log).
    split; [vm_compute; reflexivity|]. split; [vm_compute; reflexivity|]. split; [vm_compute; intuition discriminate|]. split; [vm_compute; intuition discriminate|].
    split; [vm_compute; reflexivity|]. split; [repeat (constructor; [first [exact Logic.I|intros l; apply Permutation_refl]|]); constructor|].
    eexists (firstn 4 (flat_map (fun x => match snd (snd x) with Ok r => [(fst (snd x), r)] | _ => [] end) hx_log)), _, _, _, _. split; [vm_compute; reflexivity|].
    repeat constructor.
Qed.

(** * C77 *)
(** Calls that touch one shard only (push, del, and with a single shard also pushout, force_pushout and size) happen at one moment each: the
    answers are those of the sequential model for some order of the calls. *)
Definition sole (o : maopts) (op : mop) : Prop := length (secs (ma_hash o) op) = 1%nat.
(* ---- proof ---- *)
Lemma sole_do ne hash o op c bs b r b' : MInv hash o (mk_multi o bs) -> secs (ma_hash o) op = [c] -> nth_error bs (sec_at hash o c) = Some b -> sec_do ne o c b = Ok (r, b') ->
  ma_do ne hash op (mk_multi o bs) = Ok (answer op [r], mk_multi o (set_nth (sec_at hash o c) b' bs)).
Proof.
  intros I E N D. pose proof (mi_len _ _ _ I) as L. cbn [mu_list] in L. destruct op as [e n d h|ps h|n|f h ord|]; cbn [secs] in E.
  - injection E as <-. cbn [sec_at sec_do ma_do answer] in *. unfold ma_push. rewrite (pos_ok _ _ _ n I). cbn [bind]. unfold ma_shard. cbn [mu_list mu_opt]. rewrite N. cbn [bind].
    destruct (bm_push ne (ma_agg o) e n d h b) as [[[r0 l] b1]| |]; cbn [bind] in *; try discriminate. injection D as <- <-. reflexivity.
  - destruct ps as [|[e [n d]] [|]]; try discriminate. injection E as <-. cbn [sec_at sec_do ma_do answer ma_multi_push fst snd] in *. unfold ma_push. rewrite (pos_ok _ _ _ n I). cbn [bind]. unfold ma_shard. cbn [mu_list mu_opt]. rewrite N. cbn [bind].
    destruct (bm_push ne (ma_agg o) e n d h b) as [[[r0 l] b1]| |]; cbn [bind] in *; try discriminate. injection D as <- <-. reflexivity.
  - injection E as <-. cbn [sec_at sec_do ma_do answer] in *. unfold ma_del. rewrite (pos_ok _ _ _ n I). cbn [bind]. unfold ma_shard. cbn [mu_list mu_opt]. rewrite N. cbn [bind].
    destruct (bm_del n b) as [r0 b1]. injection D as <- <-. reflexivity.
  - destruct (ma_hash o) as [|[|]]; try discriminate. injection E as <-. destruct bs as [|b0 [|]]; try discriminate. cbn in N. injection N as ->. cbn [sec_at sec_do ma_do answer set_nth] in *.
    unfold ma_pushout. cbn [mu_list mu_opt ma_shards]. destruct (bm_pushout ne f h ord b) as [[l b1]| |]; cbn [bind] in *; try discriminate. injection D as <- <-. reflexivity.
  - destruct (ma_hash o) as [|[|]]; try discriminate. injection E as <-. destruct bs as [|b0 [|]]; try discriminate. cbn in N. injection N as ->. cbn [sec_at sec_do ma_do answer set_nth] in *.
    injection D as <- <-. reflexivity.
Qed.
Definition same_call (o : maopts) (x : nat * (sec * mout)) (y : nat * (mop * mout)) : Prop :=
  fst x = fst y /\ secs (ma_hash o) (fst (snd y)) = [fst (snd x)] /\ snd (snd y) = answer (fst (snd y)) [snd (snd x)].
Definition answered (p : list mop) (rs : list mout) : list (mop * mout) := map (fun x => (fst x, answer (fst x) [snd x])) (combine p rs).
Lemma calls_of_log o log : forall qs : list (list mop), (forall x, In x log -> (fst x < length qs)%nat) -> Forall (Forall (sole o)) qs ->
  (forall i, exists rest, map fst (by_thread i log) ++ rest = flat_map (secs (ma_hash o)) (nth i qs [])) ->
  exists clog, Forall2 (same_call o) log clog /\ forall i, by_thread i clog = answered (nth i qs []) (map snd (by_thread i log)).
Proof.
  induction log as [|[j [c r]] log IH]; intros qs TH SO PR.
  - exists []. split; [constructor|]. intros i. unfold by_thread, answered. cbn. now destruct (nth i qs []).
  - assert (J : (j < length qs)%nat) by (apply (TH (j, (c, r))); now left). destruct (nth_error qs j) as [q|] eqn:EQ; [|apply nth_error_None in EQ; lia].
    pose proof (nth_error_nth _ _ [] EQ) as NQ. destruct (PR j) as [rest PJ]. unfold by_thread in PJ. cbn [filter fst] in PJ. rewrite Nat.eqb_refl, NQ in PJ. cbn [map snd fst app] in PJ.
    assert (SQ : Forall (sole o) q) by (rewrite Forall_forall in SO; apply SO; eapply nth_error_In; eauto).
    destruct q as [|op q]; [discriminate|]. inversion SQ as [|? ? S1 S2]; subst. cbn [flat_map] in PJ. destruct (secs (ma_hash o) op) as [|c' [|]] eqn:ES; try (unfold sole in S1; rewrite ES in S1; discriminate).
    cbn [app] in PJ. injection PJ as <- PJ. fold (by_thread j log) in PJ.
    assert (NT : forall i, nth i (set_nth j q qs) [] = if (i =? j)%nat then q else nth i qs []).
    { intros i. pose proof (nth_set j i q qs _ EQ) as NS. destruct (Nat.eqb_spec i j) as [EI|NE]; [apply nth_error_nth; exact NS|].
      destruct (nth_error qs i) as [x|] eqn:EX; [rewrite (nth_error_nth _ _ [] NS), (nth_error_nth _ _ [] EX); auto|]. apply nth_error_None in NS, EX. rewrite !nth_overflow; auto. }
    destruct (IH (set_nth j q qs)) as (clog & F & B).
    + intros x Hx. rewrite set_nth_length. apply TH. now right.
    + apply Forall_forall. intros x Hx. apply In_nth_error in Hx as [i Hi]. rewrite (nth_set j i q qs _ EQ) in Hi. destruct (i =? j)%nat; [injection Hi as <-; auto|]. rewrite Forall_forall in SO. apply SO. eapply nth_error_In; eauto.
    + intros i. rewrite NT. destruct (Nat.eqb_spec i j) as [EI|NE]; [subst i; eauto|]. destruct (PR i) as [rest1 P1]. exists rest1. unfold by_thread in P1. cbn [filter fst] in P1.
      destruct (Nat.eqb_spec j i); [congruence|]. exact P1.
    + exists ((j, (op, answer op [r])) :: clog). split; [constructor; auto; repeat split; auto|]. intros i. specialize (B i). rewrite NT in B. unfold by_thread in *. cbn [filter fst].
      rewrite (Nat.eqb_sym j i). destruct (Nat.eqb_spec i j) as [EI|NE]; [|exact B]. subst i. rewrite NQ. cbn [map snd]. rewrite B. reflexivity.
Qed.
Lemma calls_run ne hash o log clog : Forall2 (same_call o) log clog -> forall bs bs', MInv hash o (mk_multi o bs) -> Forall (fun y => order_ok (fst (snd y))) clog ->
  turns ne hash o bs (map snd log) bs' -> ma_run ne hash (mk_multi o bs) (map (fun y => fst (snd y)) clog) = Ok (map (fun y => snd (snd y)) clog, mk_multi o bs').
Proof.
  induction 1 as [|[i [c r]] [j [op a]] log clog (E1 & E2 & E3) F IH]; intros bs bs' I OK T; cbn [map fst snd] in *; inversion T as [|? ? ? b b' ? ? Hn Hd T2]; subst; [reflexivity|].
  inversion OK as [|? ? O1 O2]; subst. cbn [fst snd] in *. pose proof (sole_do ne hash o op c bs b r b' I E2 Hn Hd) as D. cbn [ma_run]. rewrite D. cbn [bind].
  destruct (ma_do_sim ne hash o _ _ _ _ I O1 D) as [J _]. rewrite (IH _ _ J O2 T2). reflexivity.
Qed.

Theorem C77_single_partial : forall ne hash o (body : sec -> prog (outcome bmulti) (outcome mout)), (0 < ma_hash o)%nat ->
  (forall c s, eval (body c) s = sec_run ne o c s) ->
  forall ps s, Forall order_ok (concat ps) -> Forall (sole o) (concat ps) -> hsteps (sec_at hash o) body (h_start o ps) s ->
  Forall (fun t => exists rs, got t = map Ok rs) (h_threads s) ->
  exists (clog : list (nat * (mop * mout))) m,
    ma_run ne hash (ma_new o) (map (fun y => fst (snd y)) clog) = Ok (map (fun y => snd (snd y)) clog, m) /\
    (forall x, In x clog -> (fst x < length ps)%nat) /\
    forall i t p, nth_error (h_threads s) i = Some t -> nth_error ps i = Some p ->
      exists rs, got t = map Ok rs /\ (length rs <= length p)%nat /\
        by_thread i clog = map (fun x => (fst x, answer (fst x) [snd x])) (combine p rs).
Proof.
  intros ne hash o body HP HB ps s HO SO H DF. destruct (C76_atomic ne hash o body HB ps s s H (hs_refl _ _ _ _ _ _)) as (log & _ & E & _).
  assert (E0 := E). destruct E as (LT & PR & TH & os & IT & _). unfold programs in LT, TH. rewrite map_length in LT, TH.
  assert (DD : exists l, log = map (fun x => (fst x, (fst (snd x), Ok (snd (snd x))))) l).
  { assert (X : forall i c r, In (i, (c, r)) log -> exists y, r = Ok y).
    { intros i c r Hx. specialize (TH _ Hx). cbn [fst] in TH. destruct (nth_error (h_threads s) i) as [t|] eqn:ET; [|apply nth_error_None in ET; lia].
      destruct (nth_error (programs o ps) i) as [p|] eqn:EP; [|apply nth_error_None in EP; unfold programs in EP; rewrite map_length in EP; lia].
      destruct (PR _ _ _ ET EP) as [_ G]. rewrite Forall_forall in DF. destruct (DF t (nth_error_In _ _ ET)) as [rs GR]. rewrite GR in G.
      apply in_by_thread in Hx. apply (in_map snd) in Hx. cbn [snd] in Hx. rewrite G in Hx. apply in_map_iff in Hx as (y & Ey & _). exists y. auto. }
    clear - X. induction log as [|[i [c r]] log IH]; [exists []; auto|]. destruct (X i c r (or_introl eq_refl)) as [y ->]. destruct IH as [l ->]; [intros; eapply X; right; eauto|].
    exists ((i, (c, y)) :: l). reflexivity. }
  destruct DD as [l EL].
  assert (BT : forall i, by_thread i log = map (fun x => (fst x, Ok (snd x))) (by_thread i l)).
  { intros i. rewrite EL. clear. unfold by_thread. induction l as [|[j [c r]] l IH]; cbn [map filter fst snd]; auto. destruct (j =? i)%nat; cbn [map snd fst]; now rewrite IH. }
  assert (D : defined log (map snd l)). { unfold defined. rewrite EL, !map_map. reflexivity. }
  destruct (log_turns ne hash o ps log s _ E0 D) as (bs & T & _).
  destruct (calls_of_log o l ps) as (clog & F & B).
  { intros [i x] Hx. cbn [fst]. assert (Hy : In (i, (fst x, Ok (snd x))) log) by (rewrite EL; apply in_map_iff; exists (i, x); auto). exact (TH _ Hy). }
  { apply Forall_forall. intros p Hp. apply Forall_forall. intros op Hop. rewrite Forall_forall in SO. apply SO. apply in_concat. eauto. }
  { intros i. destruct (nth_error ps i) as [p|] eqn:EP.
    - rewrite (nth_error_nth _ _ [] EP). destruct (nth_error (h_threads s) i) as [t|] eqn:ET; [|apply nth_error_None in ET; assert (i < length ps)%nat by (apply nth_error_Some; congruence); lia].
      destruct (PR i t (flat_map (secs (ma_hash o)) p) ET) as [PP _]; [unfold programs; rewrite nth_error_map, EP; reflexivity|]. exists (running t ++ todo t). rewrite <- PP, BT, map_map. reflexivity.
    - exists (flat_map (secs (ma_hash o)) (nth i ps [])). assert (BN : by_thread i l = []); [|rewrite BN; reflexivity].
      destruct (by_thread i l) as [|x q] eqn:EB; auto. exfalso. assert (IN : In x (by_thread i l)) by (rewrite EB; now left). unfold by_thread in IN. apply in_map_iff in IN as ([j y] & <- & IN).
      apply filter_In in IN as [IN EJ]. cbn [fst] in EJ. apply Nat.eqb_eq in EJ as ->. assert (Hy : In (i, (fst y, Ok (snd y))) log) by (rewrite EL; apply in_map_iff; exists (i, y); auto).
      specialize (TH _ Hy). cbn [fst] in TH. apply nth_error_None in EP. lia. }
  assert (TC : forall x, In x clog -> (fst x < length ps)%nat).
  { intros x Hx. apply In_nth_error in Hx as [k Hk]. assert (exists y, In y l /\ same_call o y x) as (y & IY & SY & _).
    { clear - F Hk. revert k Hk. induction F as [|a b l clog S F IH]; intros [|k] Hk; try discriminate; cbn in Hk; [injection Hk as <-; exists a; split; [now left|auto]|].
      destruct (IH _ Hk) as (y & A & B). exists y. split; [now right|auto]. }
    rewrite <- SY. destruct y as [i y]. cbn [fst]. assert (Hy : In (i, (fst y, Ok (snd y))) log) by (rewrite EL; apply in_map_iff; exists (i, y); auto). exact (TH _ Hy). }
  exists clog, (mk_multi o bs). split; [|split; [exact TC|]].
  - rewrite <- new_multi. apply (calls_run ne hash o l clog F _ _ (MInv_new hash o HP)); [|exact T].
    apply Forall_forall. intros [i [op a]] Hy. cbn [fst snd]. specialize (TC _ Hy). cbn [fst] in TC. apply in_by_thread in Hy. rewrite B in Hy. unfold answered in Hy.
    apply in_map_iff in Hy as ([op' r] & EQ & Hy). injection EQ as -> _. apply in_combine_l in Hy. rewrite Forall_forall in HO. apply HO. apply in_concat. exists (nth i ps []). split; auto. apply nth_In. exact TC.
  - intros i t p ET EP. exists (map snd (by_thread i l)). destruct (PR i t (flat_map (secs (ma_hash o)) p) ET) as [PP G]; [unfold programs; rewrite nth_error_map, EP; reflexivity|].
    rewrite <- G, BT, !map_map. split; [reflexivity|]. split; [|rewrite B, (nth_error_nth _ _ [] EP); reflexivity].
    assert (LP : length (flat_map (secs (ma_hash o)) p) = length p).
    { assert (SP : Forall (sole o) p) by (apply Forall_forall; intros op Hop; rewrite Forall_forall in SO; apply SO; apply in_concat; exists p; split; auto; eapply nth_error_In; eauto).
      clear - SP. induction SP as [|op p S SP IH]; auto. cbn [flat_map length]. rewrite app_length, IH. unfold sole in S. lia. }
    rewrite <- LP, <- PP, BT, map_map, !app_length, !map_length. lia.
Qed.
Print Assumptions C77_single_partial.
Definition hy_ps : list (list mop) := [[MPush mx_e na (mx_d 108 4) true; MDel nd]; [MMulti [(mx_e, (nd, mx_d 113 7))] true; MDel na; MDel na]].
Example C77_witness : Forall (sole mx_o) (concat hy_ps) /\ exists s, hsteps (sec_at mx_hash mx_o) (two_steps ne_rev mx_o) (h_start mx_o hy_ps) s /\
  answers s = [[MAns true []]; [MAns true []; MAns true []]] /\ map (fun t => length (running t)) (h_threads s) = [1; 1]%nat.
Proof.
  split; [repeat constructor|]. eexists. split; [eapply hrun_steps with (l := [0; 0; 1; 1; 1; 0; 1; 0; 1; 1; 1; 1; 0; 1]%nat); [apply hs_refl|vm_compute; reflexivity]|].
  split; vm_compute; reflexivity.
Qed.

(** The others are not atomic. *)
Fixpoint merges {A} (a : list A) : list A -> list (list A) :=
  fix go (b : list A) : list (list A) :=
    match a, b with
    | [], _ => [b]
    | _, [] => [a]
    | x :: a', y :: b' => map (cons x) (merges a' b) ++ map (cons y) (go b')
    end.
Lemma merges_all {A} (a b l : list A) : interleaved a b l -> In l (merges a b).
Proof.
  induction 1 as [|x a b l H IH|x a b l H IH]; [now left| |].
  - destruct b as [|y b]; cbn [merges].
    + left. f_equal. clear - H. remember [] as z eqn:E in H. induction H; auto; [f_equal; auto|discriminate].
    + apply in_or_app. left. now apply in_map.
  - destruct a as [|y a]; cbn [merges].
    + left. f_equal. clear - H. remember [] as z eqn:E in H. induction H; auto; [discriminate|f_equal; auto].
    + apply in_or_app. right. now apply in_map.
Qed.
(** What the calls that satisfy [p] answer when the calls [l] are made one after the other. *)
Definition replies (p : mop -> bool) (l : list mop) : list mout :=
  match ma_run ne_rev mx_hash (ma_new mx_o) l with Ok (outs, _) => map snd (filter (fun x => p (fst x)) (combine l outs)) | _ => [] end.
Definition is_del (op : mop) : bool := match op with MDel _ => true | _ => false end.
Definition is_size (op : mop) : bool := match op with MSize => true | _ => false end.
Definition is_pushout (op : mop) : bool := match op with MPushout _ _ _ => true | _ => false end.
(** All calls of all threads are finished. *)
Definition finished {S C R} (s : hstate S C R) : Prop := Forall (fun t => todo t = [] /\ inside t = None) (h_threads s).

(** multi_push of "a" and "dd": another thread deletes "a", successfully, and then finds no "dd".  One call after the other, "dd" is there
    whenever "a" is. *)
Theorem C77_multi_push_refuted : let a := [MMulti [(mx_e, (na, mx_d 108 4)); (mx_e, (nd, mx_d 109 6))] true] in let b := [MDel na; MDel nd] in
  (exists s, hsteps (sec_at mx_hash mx_o) (two_steps ne_rev mx_o) (h_start mx_o [a; b]) s /\ finished s /\ nth 1 (answers s) [] = [MAns true []; MAns false []]) /\
  forall l, interleaved a b l -> replies is_del l <> [MAns true []; MAns false []].
Proof.
  split.
  - eexists. split; [eapply hrun_steps with (l := [0; 0; 0; 0; 1; 1; 1; 1; 1; 1; 1; 1; 0; 0; 0; 0]%nat); [apply hs_refl|vm_compute; reflexivity]|].
    split; [repeat constructor|vm_compute; reflexivity].
  - intros l H. apply merges_all in H. vm_compute in H. repeat (destruct H as [<-|H]; [vm_compute; discriminate|]). destruct H.
Qed.
Print Assumptions C77_multi_push_refuted.
(** force_pushout is no snapshot: it reports "dd", pushed after "a" by the same thread, and not "a". *)
Theorem C77_pushout_refuted : let a := [MPushout true true hx_id] in let b := [MPush mx_e na (mx_d 108 4) true; MPush mx_e nd (mx_d 109 6) true] in
  (exists s, hsteps (sec_at mx_hash mx_o) (two_steps ne_rev mx_o) (h_start mx_o [a; b]) s /\ finished s /\ told (nth 0 (answers s) []) = [[]; []; [(nd, 3)]]) /\
  forall l, interleaved a b l -> concat (told (replies is_pushout l)) <> [(nd, 3)].
Proof.
  split.
  - eexists. split; [eapply hrun_steps with (l := [0; 0; 0; 0; 0; 0; 0; 0; 1; 1; 1; 1; 1; 1; 1; 1; 0; 0; 0; 0]%nat); [apply hs_refl|vm_compute; reflexivity]|].
    split; [repeat constructor|vm_compute; reflexivity].
  - intros l H. apply merges_all in H. vm_compute in H. repeat (destruct H as [<-|H]; [vm_compute; discriminate|]). destruct H.
Qed.
Print Assumptions C77_pushout_refuted.
(** size() answers a number of names there never was: none, although "dd" goes only after "a" has come. *)
Theorem C77_size_refuted : let a := [MPush mx_e nd (mx_d 109 6) true; MSize] in let b := [MPush mx_e na (mx_d 108 4) true; MDel nd] in
  (exists s, hsteps (sec_at mx_hash mx_o) (two_steps ne_rev mx_o) (h_start mx_o [a; b]) s /\ finished s /\
     answer MSize (tl (nth 0 (answers s) [])) = MSizes 0 0) /\
  forall l, interleaved a b l -> replies is_size l <> [MSizes 0 0].
Proof.
  split.
  - eexists. split; [eapply hrun_steps with (l := [0; 0; 0; 0; 0; 0; 0; 0; 0; 0; 0; 0; 1; 1; 1; 1; 1; 1; 1; 1; 0; 0; 0; 0]%nat); [apply hs_refl|vm_compute; reflexivity]|].
    split; [repeat constructor|vm_compute; reflexivity].
  - intros l H. apply merges_all in H. vm_compute in H. repeat (destruct H as [<-|H]; [vm_compute; discriminate|]). destruct H.
Qed.
Print Assumptions C77_size_refuted.

(** * C78 *)
(** Handlers that leave the multi_aggregator alone: as long as somebody has something left to do, somebody can go on. *)
Theorem C78_quiet_handlers_partial : forall hash o (body : sec -> prog (outcome bmulti) (outcome mout)) ps s, (0 < ma_hash o)%nat -> hsteps (sec_at hash o) body (h_start o ps) s ->
  (forall s', ~ hstep (sec_at hash o) body s s') -> Forall (fun t => todo t = [] /\ inside t = None) (h_threads s).
Proof.
  intros hash o body ps s HP H ST. destruct (steps_hinv _ _ _ _ _ _ _ (init_hinv (sec_at hash o) body (new_shards o) (programs o ps)) H) as [log I]. cbn [app] in I.
  apply Forall_forall. intros t Ht. destruct (todo t) eqn:E1, (inside t) eqn:E2; auto; exfalso;
    (destruct (progress _ _ _ _ _ _ I) as [s' X]; [|apply Exists_exists; exists t; split; [exact Ht|unfold unfinished; rewrite ?E1, ?E2; (left + right); congruence]|exact (ST _ X)]).
  all: unfold new_shards; rewrite repeat_length; apply Forall_forall; intros c Hc; apply in_concat in Hc as (p1 & Hp & Hc); unfold programs in Hp;
    apply in_map_iff in Hp as (q1 & <- & _); apply in_flat_map in Hc as (op & _ & Hc); pose proof (secs_at hash o op HP) as F; rewrite Forall_forall in F; auto.
Qed.
Print Assumptions C78_quiet_handlers_partial.


(** A handler that pushes, deletes or asks for sizes on the shard it was called from waits for itself, ... *)
Theorem C78_own_shard_refuted : forall i, exists s, lsteps [mk_lthread [] (shard_acts i (shard_acts i []))] s /\ deadlock s.
Proof.
  intros i. exists [mk_lthread [(LAg i, Wr)] (tl (shard_acts i (shard_acts i [])))]. split.
  - eapply lss_step; [constructor|]. apply (ls_acq [] [] (LAg i) Wr _ []). cbn. tauto.
  - apply blocked_stuck; [|reflexivity]. cbn [forallb andb]. unfold blocked. cbn [shard_acts sect app tl l_prog].
    destruct (in_dec held_eq_dec _ _) as [|n]; [reflexivity|]. exfalso. apply n. left. reflexivity.
Qed.
Print Assumptions C78_own_shard_refuted.
(** ... and two handlers that use each other's shard can wait for each other. *)
Theorem C78_crossed_refuted : exists s, lsteps [mk_lthread [] (shard_acts 0 (shard_acts 1 [])); mk_lthread [] (shard_acts 1 (shard_acts 0 []))]%nat s /\ deadlock s.
Proof. eexists. split; [eapply (l_exec_steps [0; 1]%nat); vm_compute; reflexivity|]. apply blocked_stuck; vm_compute; reflexivity. Qed.
Print Assumptions C78_crossed_refuted.
(** One thread waits for the shard the other is in; the other can go on. *)
Example C78_witness : exists s, hsteps (sec_at mx_hash mx_o) (two_steps ne_rev mx_o) (h_start mx_o hx_ps) s /\
  map (fun t => map (sec_at mx_hash mx_o) (running t)) (h_threads s) = [[1]; []]%nat /\ hrun1 (sec_at mx_hash mx_o) (two_steps ne_rev mx_o) 1 s = None /\
  exists s', hstep (sec_at mx_hash mx_o) (two_steps ne_rev mx_o) s s'.
Proof.
  eexists. split; [eapply hrun_steps with (l := [0; 0]%nat); [apply hs_refl|vm_compute; reflexivity]|]. split; [vm_compute; reflexivity|]. split; [vm_compute; reflexivity|].
  eexists. eapply h_body with (i := 0%nat); reflexivity.
Qed.
