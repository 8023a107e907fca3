(** Property C105: a multi_aggregator whose handlers use it. *)
From Coq Require Import ZArith List Bool Arith Lia Ascii Permutation.
From Verif Require Import Base SortFacts ModelTypes ModelReducer SpecReducer ModelSeparator SpecSeparator SepSpecProofs SepRun ReducerProofs ListFacts ModelAggregator SpecAggregator AggProofs AggRun AggFinal AggSafe RegFinal
  ModelRegistry SpecRegistry RegProofs ModelMulti SpecMulti MultiProofs MultiRun SpecSystem SystemProofs SpecRelay RelayProofs
  ModelShards SpecShards ShardProofs ShardRun ShardTotal PropsReducer PropsSeparator PropsAggregator PropsRegistry PropsMulti PropsShards ModelMultiReenter SpecMultiReenter MultiReenterProofs.
Import ListNotations.
Local Open Scope Z_scope.

(* ---- proof ---- *)
Definition mr_outs (r : outcome mout) : list (name * adata) := match r with Ok x => mrecs x | _ => [] end.
Definition mr_fine (r : outcome mout) : Prop := exists x, r = Ok x.
Section Runs.
  Variables (ne : nat -> list Z -> list Z) (hash : name -> Z) (o : maopts) (body : sec -> mbody).
  Hypothesis HB : sections_of ne o body.
  Lemma body_outs c s : let '(r, l, _) := heval (body c) s in mr_fine r -> l = mr_outs r.
  Proof. pose proof (HB c s) as H. destruct (heval (body c) s) as [[r l] s']. intros [x ->]. apply H. reflexivity. Qed.
  Lemma body_alone c s : alone body c s = sec_run ne o c s.
  Proof. unfold alone. pose proof (HB c s) as H. destruct (heval (body c) s) as [[r l] s']. apply H. Qed.
  Lemma run_exp n cs evs os : mr_run hash o body n cs = HEnd (evs, os) -> explained (sec_at hash o) (secs (ma_hash o)) body mr_outs mr_fine [] (new_shards o) evs os.
  Proof. intros E. exact (proj2 (proj2 (run_explained (sec_at hash o) (secs (ma_hash o)) body mr_outs mr_fine body_outs n)) _ _ _ _ _ E). Qed.
  Lemma run_turn n cs evs os : mr_run hash o body n cs = HEnd (evs, os) -> in_turn (sec_at hash o) (sec_run ne o) (new_shards o) (mr_secs evs) os.
  Proof. intros E. apply run_exp in E as (T & _). eapply in_turn_ext; [|exact T]. exact body_alone. Qed.
  Lemma run_turns n cs evs os l : mr_run hash o body n cs = HEnd (evs, os) -> all_defined evs l -> exists bs, os = map Ok bs /\ turns ne hash o (mu_list (ma_new o)) l bs.
  Proof. intros E D. apply run_turn in E. rewrite D, new_shards_map in E. now apply turns_ok in E. Qed.
  Lemma run_order n cs evs os l : mr_run hash o body n cs = HEnd (evs, os) -> all_defined evs l -> Forall (hc_all order_ok) cs -> Forall (fun x => sec_order_ok (fst x)) l.
  Proof.
    intros E D F. assert (X : Forall (fun x => sec_order_ok (fst x)) (mr_secs evs)).
    { refine (proj2 (proj2 (run_all (sec_at hash o) (secs (ma_hash o)) body sec_order_ok n)) _ _ _ _ _ _ E). eapply Forall_impl; [|exact F]. apply hc_all_impl. apply secs_order. }
    unfold all_defined in D. rewrite D in X. clear - X. induction l as [|x l IH]; cbn [map] in X; inversion X; subst; constructor; auto.
  Qed.
End Runs.
Lemma turns_of_name ne hash o n bs l bs' : turns ne hash o bs l bs' -> MInv hash o (mk_multi o bs) -> Forall (fun x => sec_order_ok (fst x)) l ->
  Forall (fun x => sec_at hash o (fst x) <> shard_of hash o n -> of_name n (mrecs (snd x)) = []) l.
Proof.
  induction 1 as [|bs c r b b' t bs' E D T IH]; intros I LO; constructor; inversion LO as [|? ? O1 O2]; subst; cbn [fst] in O1.
  - cbn [fst snd]. intros N. destruct (sec_sim ne hash o bs c r b b' n I O1 E D) as [_ K]. assert (X : sec_call hash o n c = None).
    { destruct c as [e m d h|m|f h ord i|i]; cbn [sec_call sec_at] in *; auto; try (destruct (name_eqb_spec n m); [subst; congruence|auto]). destruct (Nat.eqb_spec i (shard_of hash o n)); [congruence|auto]. }
    rewrite X in K. tauto.
  - destruct (sec_sim ne hash o bs c r b b' n I O1 E D) as [J _]. auto.
Qed.
Lemma of_name_flat {A} n (l : list (name * A)) : of_name n l = flat_map (fun p => if name_eqb n (fst p) then [snd p] else []) l.
Proof. unfold of_name. induction l as [|x l IH]; cbn [filter flat_map]; auto. destruct (name_eqb n (fst x)); cbn [map app]; now rewrite IH. Qed.

Lemma turns_nothing_lost ne : nth_element_ok ne -> forall hash o bs l1 h ord r l2 n, (0 < ma_hash o)%nat -> 0 < so_step (ao_sep (ma_agg o)) ->
  turns ne hash o (mu_list (ma_new o)) (l1 ++ (SPop true h ord (shard_of hash o n), r) :: l2) bs ->
  Forall (fun x => sec_order_ok (fst x)) (l1 ++ (SPop true h ord (shard_of hash o n), r) :: l2) -> Forall (fun x => sec_call hash o n (fst x) = None) l2 ->
  ~ In (SDel n) (map fst (l1 ++ (SPop true h ord (shard_of hash o n), r) :: l2)) -> Forall fed_typed (sec_fed n (l1 ++ (SPop true h ord (shard_of hash o n), r) :: l2)) ->
  forward (so_step (ao_sep (ma_agg o))) (map fed_time (sec_fed n (l1 ++ (SPop true h ord (shard_of hash o n), r) :: l2))) ->
  (exists groups : list (Z * list rop), Permutation (flat_map snd groups) (map OpAddRed (sec_fed n (l1 ++ (SPop true h ord (shard_of hash o n), r) :: l2))) /\
     Forall2 (fun q d => reported_as ne (so_red (ao_sep (ma_agg o))) (fst q) (snd q) d) groups (sec_given n (l1 ++ (SPop true h ord (shard_of hash o n), r) :: l2))) /\
  u64 (sum_count (sec_given n (l1 ++ (SPop true h ord (shard_of hash o n), r) :: l2))) =
  u64 (fold_right Z.add 0 (map (fun d => ri_count (rd_info d)) (sec_fed n (l1 ++ (SPop true h ord (shard_of hash o n), r) :: l2)))).
Proof.
  intros Hne hash o bs l1 h ord r l2 n HP Hs T LO QU ND TY FW.
  apply turns_split in T as (bs1 & T1 & T2). apply Forall_app in LO as [LO1 LO2]. rewrite map_app in ND.
  inversion T2 as [|? ? ? b b' ? ? Hn Hd T3]; subst. inversion LO2 as [|? ? O2 O3]; subst. cbn [fst] in O2.
  assert (EF : sec_fed n (l1 ++ (SPop true h ord (shard_of hash o n), r) :: l2) = sec_fed n l1 ++ sec_fed n l2) by (unfold sec_fed; now rewrite flat_map_app).
  assert (EG : sec_given n (l1 ++ (SPop true h ord (shard_of hash o n), r) :: l2) = sec_given n l1 ++ of_name n (mrecs r) ++ sec_given n l2).
  { unfold sec_given. rewrite flat_map_app, of_name_app. cbn [flat_map snd]. now rewrite of_name_app. }
  rewrite EF in *. rewrite map_app in FW. apply Forall_app in TY as [TY1 _]. apply forward_app in FW as [FW1 _].
  destruct (turns_inv ne hash o Hne Hs true n _ _ _ T1 [] [] (so_step (ao_sep (ma_agg o))) (MInv_new hash o HP) LO1) as [I1 C1]; auto.
  { rewrite new_multi, get_new. apply cinv_none; lia. }
  { intros _. split; auto. intros H. apply ND, in_or_app. now left. }
  cbn [app] in C1. destruct (sec_sim ne hash o bs1 _ r b b' n I1 O2 Hn Hd) as [I2 K]. cbn [sec_call] in K. rewrite Nat.eqb_refl in K.
  destruct (quiet_turns ne hash o n _ _ _ T3 I2 O3 QU) as [Q1 Q2]. rewrite EG, Q1, Q2, !app_nil_r.
  assert (X : exists groups, Forall2 (wrel ne (so_red (ao_sep (ma_agg o)))) groups (sec_given n l1 ++ of_name n (mrecs r)) /\ Permutation (all_ops groups) (map OpAddRed (sec_fed n l1))).
  { cbn [sec_do] in Hd. destruct (bm_pushout ne true h ord b) as [[lo b1]| |]; cbn [bind] in Hd; try discriminate. injection Hd as <- <-. cbn [sec_view mrecs] in *.
    cbn [kdo] in K. change (pop_call true) with GoForcePop in K. destruct (ma_get hash o (mk_multi o bs1) n) as [g|].
    - destruct (g_call ne GoForcePop g) as [[r1 g1]| |] eqn:EC; cbn [bind] in K; try discriminate. injection K as <- _. eapply flushed; eauto.
    - injection K as <- _. rewrite app_nil_r. destruct C1 as (groups & lost & held & F & -> & P & HL). destruct (HL eq_refl) as [-> _]. rewrite !app_nil_r in P. eauto. }
  destruct X as (groups & F & P). split; [exists groups; auto|]. rewrite (wsum_count ne Hne _ _ _ F), (declared_perm _ _ P), declared_red. reflexivity.
Qed.

(** * C105 *)
(** The sections as the code has them do what the sections without handlers do, and give the handler exactly the records they report: the theorems
    below are about this multi_aggregator, and about every other division of its sections into statements and handler calls. *)
Theorem C105_sections : forall ne o, sections_of ne o (sec_body ne o).
Proof. exact sec_body_ok. Qed.
Print Assumptions C105_sections.
(** Every program ends: the bound on the recursion is a device of the model. *)
Theorem C105_bound : forall hash o body cs, exists n r, r <> HMore /\ forall k, (n <= k)%nat -> mr_run hash o body k cs = r.
Proof.
  intros hash o body cs. destruct (all_end (sec_at hash o) (secs (ma_hash o)) body cs [] (new_shards o)) as [n H]. exists n. eexists. split; [exact H|].
  intros k L. exact (proj2 (proj2 (run_more _ _ _ n)) k [] cs (new_shards o) L H).
Qed.
Print Assumptions C105_bound.
(** If no handler uses a shard that a call around it is in, every call returns. *)
Theorem C105_returns : forall hash o body cs, (0 < ma_hash o)%nat -> Forall (hc_apart (sec_at hash o) (secs (ma_hash o)) []) cs ->
  exists n evs os, forall k, (n <= k)%nat -> mr_run hash o body k cs = HEnd (evs, os).
Proof.
  intros hash o body cs HP F. destruct (C105_bound hash o body cs) as (n & r & NM & E). specialize (E n (le_n n)) as E1.
  pose proof (proj2 (proj2 (run_apart (sec_at hash o) (secs (ma_hash o)) body n)) [] cs (new_shards o) F) as NS.
  pose proof (proj1 (proj2 (proj2 (run_there (sec_at hash o) (secs (ma_hash o)) body (ma_hash o) (fun op => secs_at hash o op HP) n)) [] cs (new_shards o) (repeat_length _ _))) as NN.
  unfold mr_run in E1. fold (new_shards o) in E1. rewrite E1 in NS, NN. destruct r as [[evs os]| | |]; try congruence. exists n, evs, os. exact E.
Qed.
Print Assumptions C105_returns.
(** A program with calls in handlers does what its sections do one after the other, in the order in which they end. *)
Theorem C105_flat : forall ne hash o body, sections_of ne o body -> forall n cs evs os, mr_run hash o body n cs = HEnd (evs, os) ->
  in_turn (sec_at hash o) (sec_run ne o) (repeat (Ok []) (ma_hash o)) (mr_secs evs) os.
Proof. intros ne hash o body HB n cs evs os E. eapply run_turn; eauto. Qed.
Print Assumptions C105_flat.
(** What is seen: every call made, in the program or by a handler, with its sections in order, the handlers' calls in the places where their records are
    given, and the call's return. *)
Theorem C105_made : forall hash o body n cs evs os, mr_run hash o body n cs = HEnd (evs, os) -> made (secs (ma_hash o)) cs evs.
Proof. intros hash o body n cs evs os E. exact (proj2 (proj2 (run_made (sec_at hash o) (secs (ma_hash o)) body n)) _ _ _ _ _ E). Qed.
Print Assumptions C105_made.
(** Every call has been answered with what its sections did, and these come in their order. *)
Theorem C105_answers : forall ne hash o body, sections_of ne o body -> forall n cs evs os op rs, mr_run hash o body n cs = HEnd (evs, os) -> In (op, rs) (mr_done evs) ->
  length rs = length (secs (ma_hash o) op) /\ subseq (combine (secs (ma_hash o) op) rs) (mr_secs evs).
Proof. intros ne hash o body HB n cs evs os op rs E H. eapply run_exp in E; eauto. destruct E as (_ & _ & _ & _ & A). auto. Qed.
Print Assumptions C105_answers.
(** The handlers see the records of a name in the order in which its sections report them. *)
Theorem C105_order : forall ne hash o body, sections_of ne o body -> forall n cs evs os l k, (0 < ma_hash o)%nat -> Forall (hc_all order_ok) cs ->
  mr_run hash o body n cs = HEnd (evs, os) -> all_defined evs l -> of_name k (mr_given evs) = sec_given k l.
Proof.
  intros ne hash o body HB n cs evs os l k HP HO E D. pose proof (run_order hash o body n cs evs os l E D HO) as LO. destruct (run_turns ne hash o body HB n cs evs os l E D) as (bs & _ & T).
  pose proof (turns_of_name ne hash o k _ _ _ T (MInv_new hash o HP) LO) as TN. destruct (run_exp ne hash o body HB n cs evs os E) as (_ & _ & _ & G & _).
  assert (FF : Forall (fun q => mr_fine (snd q)) (mr_secs evs)) by (rewrite D; apply Forall_map, Forall_forall; intros x _; cbn [snd]; now exists (snd x)). specialize (G FF). clear FF T LO E HO.
  assert (X : forall j, of_name k (given_by (sec_at hash o) j evs) = flat_map (fun x => if (sec_at hash o (fst x) =? j)%nat then of_name k (mrecs (snd x)) else []) l).
  { intros j. rewrite G, D. unfold at_shard_outs. clear. induction l as [|x l IH]; cbn [map flat_map fst snd mr_outs]; auto. rewrite of_name_app, IH. destruct (_ =? j)%nat; reflexivity. }
  rewrite of_name_flat, (given_at (sec_at hash o) _ (shard_of hash o k)).
  - rewrite <- of_name_flat, X. unfold sec_given. clear - TN. induction TN as [|x l H _ IH]; cbn [flat_map]; auto. rewrite of_name_app, IH. destruct (Nat.eqb_spec (sec_at hash o (fst x)) (shard_of hash o k)) as [|N]; auto. now rewrite (H N).
  - intros j N. rewrite <- of_name_flat, X. clear - TN N. induction TN as [|x l H _ IH]; cbn [flat_map]; auto. rewrite IH. destruct (Nat.eqb_spec (sec_at hash o (fst x)) j) as [<-|]; auto. now rewrite (H N).
Qed.
Print Assumptions C105_order.
(** What happens to one name is what happens to one aggregator given its calls, nested or not, in the order in which their sections end. *)
Theorem C105_per_name : forall ne hash o body, sections_of ne o body -> forall n cs evs os l k, (0 < ma_hash o)%nat -> Forall (hc_all order_ok) cs ->
  mr_run hash o body n cs = HEnd (evs, os) -> all_defined evs l ->
  exists c b, krun ne (ma_agg o) None (map fst (sec_project hash o k l)) = Ok (map snd (sec_project hash o k l), c) /\
    nth_error os (shard_of hash o k) = Some (Ok b) /\ bm_find k b = c.
Proof.
  intros ne hash o body HB n cs evs os l k HP HO E D. pose proof (run_order hash o body n cs evs os l E D HO) as LO. destruct (run_turns ne hash o body HB n cs evs os l E D) as (bs & -> & T).
  pose proof (turns_name ne hash o k _ _ _ T (MInv_new hash o HP) LO) as K. rewrite new_multi, get_new in K.
  assert (LB : length bs = ma_hash o). { transitivity (length (mu_list (ma_new o))); [|exact (mi_len _ _ _ (MInv_new hash o HP))]. clear - T. induction T as [|? ? ? ? ? ? ? A B C IH]; auto. rewrite IH. apply set_nth_length. }
  rewrite nth_error_map. unfold ma_get in K. cbn [mu_list] in K. destruct (nth_error bs (shard_of hash o k)) as [b|] eqn:EB.
  - exists (bm_find k b), b. auto.
  - exfalso. apply nth_error_None in EB. pose proof (shard_lt hash o k HP). lia.
Qed.
Print Assumptions C105_per_name.
(** The records given for a name are windows over distinct records pushed under it, also those pushed by handlers. *)
Theorem C105_nothing_invented : forall ne, nth_element_ok ne -> forall hash o body, sections_of ne o body -> forall n cs evs os l k, (0 < ma_hash o)%nat -> 0 < so_step (ao_sep (ma_agg o)) ->
  Forall (hc_all order_ok) cs -> mr_run hash o body n cs = HEnd (evs, os) -> all_defined evs l -> Forall fed_typed (sec_fed k l) ->
  exists (groups : list (Z * list rop)) rest, Forall2 (fun q d => reported_as ne (so_red (ao_sep (ma_agg o))) (fst q) (snd q) d) groups (of_name k (mr_given evs)) /\
    Permutation (flat_map snd groups ++ rest) (map OpAddRed (sec_fed k l)).
Proof.
  intros ne Hne hash o body HB n cs evs os l k HP Hs HO E D TY. rewrite (C105_order ne hash o body HB n cs evs os l k HP HO E D).
  pose proof (run_order hash o body n cs evs os l E D HO) as LO. destruct (run_turns ne hash o body HB n cs evs os l E D) as (bs & _ & T).
  destruct (turns_inv ne hash o Hne Hs false k _ _ _ T [] [] (so_step (ao_sep (ma_agg o))) (MInv_new hash o HP) LO) as [_ (groups & lost & held & F & _ & P & _)]; auto.
  - rewrite new_multi, get_new. apply cinv_none; lia.
  - discriminate.
  - exists groups, (held ++ lost). split; [exact F|exact P].
Qed.
Print Assumptions C105_nothing_invented.
(** If the records of a name come in the order of their timestamps, nobody deletes the name, and the last thing that happens to its shard is a
    force_pushout, every record has been handed to a handler. *)
Theorem C105_nothing_lost : forall ne, nth_element_ok ne -> forall hash o body, sections_of ne o body -> forall n cs evs os l l1 h ord r l2 k, (0 < ma_hash o)%nat -> 0 < so_step (ao_sep (ma_agg o)) ->
  Forall (hc_all order_ok) cs -> mr_run hash o body n cs = HEnd (evs, os) -> all_defined evs l ->
  l = l1 ++ (SPop true h ord (shard_of hash o k), r) :: l2 -> Forall (fun x => sec_call hash o k (fst x) = None) l2 ->
  ~ In (SDel k) (map fst l) -> Forall fed_typed (sec_fed k l) -> forward (so_step (ao_sep (ma_agg o))) (map fed_time (sec_fed k l)) ->
  (exists groups : list (Z * list rop), Permutation (flat_map snd groups) (map OpAddRed (sec_fed k l)) /\
     Forall2 (fun q d => reported_as ne (so_red (ao_sep (ma_agg o))) (fst q) (snd q) d) groups (of_name k (mr_given evs))) /\
  u64 (sum_count (of_name k (mr_given evs))) = u64 (fold_right Z.add 0 (map (fun d => ri_count (rd_info d)) (sec_fed k l))).
Proof.
  intros ne Hne hash o body HB n cs evs os l l1 h ord r l2 k HP Hs HO E D EL QU ND TY FW. rewrite (C105_order ne hash o body HB n cs evs os l k HP HO E D).
  pose proof (run_order hash o body n cs evs os l E D HO) as LO. destruct (run_turns ne hash o body HB n cs evs os l E D) as (bs & _ & T). clear E D. subst l.
  exact (turns_nothing_lost ne Hne hash o _ _ _ _ _ _ _ HP Hs T LO QU ND TY FW).
Qed.
Print Assumptions C105_nothing_lost.

(** Safe calls, nested or not, never fail. *)
Theorem C105_total : forall ne, nth_element_ok ne -> forall hash o body, sections_of ne o body -> forall n cs evs os, (0 < ma_hash o)%nat -> 0 < so_step (ao_sep (ma_agg o)) <= i64_max ->
  Forall (hc_all order_ok) cs -> Forall (hc_all (mop_safe (ma_agg o))) cs -> mr_run hash o body n cs = HEnd (evs, os) ->
  Z.of_nat (length (flat_map (fun x => sec_values (fst x)) (mr_secs evs))) < two64 -> exists l, all_defined evs l.
Proof.
  intros ne Hne hash o body HB n cs evs os HP Hs HO HS E L. pose proof (run_turn ne hash o body HB n cs evs os E) as T. rewrite new_shards_map in T. unfold all_defined.
  eapply (in_turn_total ne Hne hash o HP Hs (mr_secs evs) _ 0%nat os); [|apply Forall_and| |exact T].
  - split; [apply MInv_new; auto|]. intros k g G. rewrite new_multi, get_new in G. discriminate.
  - refine (proj2 (proj2 (run_all (sec_at hash o) (secs (ma_hash o)) body sec_order_ok n)) _ _ _ _ _ _ E). eapply Forall_impl; [|exact HO]. apply hc_all_impl. apply secs_order.
  - refine (proj2 (proj2 (run_all (sec_at hash o) (secs (ma_hash o)) body (sec_safe (ma_agg o)) n)) _ _ _ _ _ _ E). eapply Forall_impl; [|exact HS]. apply hc_all_impl. apply secs_safe.
  - cbn [Nat.add]. replace (total (fun c => length (sec_values c)) (mr_secs evs)) with (length (flat_map (fun x => sec_values (fst x)) (mr_secs evs))); [exact L|].
    unfold total. clear. induction (mr_secs evs) as [|x l IH]; cbn [flat_map map list_sum fold_right]; auto. rewrite app_length, IH. reflexivity.
Qed.
Print Assumptions C105_total.

(* ---- proof ---- *)
Lemma sizes_turns ne hash o bs l bs' : turns ne hash o bs l bs' -> Forall (fun x => match fst x with SSize _ => mrecs (snd x) = [] | _ => True end) l.
Proof. induction 1 as [|bs c r b b' t bs' E D T IH]; constructor; auto. cbn [fst snd]. destruct c; auto. cbn [sec_do] in D. injection D as <- _. reflexivity. Qed.
Lemma answer_recs ne hash o bs op rs bs' : turns ne hash o bs (combine (secs (ma_hash o) op) rs) bs' -> length rs = length (secs (ma_hash o) op) ->
  mrecs (answer op rs) = flat_map mrecs rs.
Proof.
  intros T L. destruct op as [e n d h|ps h|n|f h ord|]; cbn [answer mrecs secs length] in *; auto; try (destruct rs as [|r [|]]; try discriminate; cbn; now rewrite app_nil_r).
  apply sizes_turns in T. revert L T. generalize (seq 0 (ma_hash o)) as js. induction rs as [|r rs IH]; intros [|j js] L T; cbn [map length] in L; try discriminate; auto.
  cbn [map combine flat_map] in *. inversion T as [|? ? T1 T2]; subst. cbn [fst snd] in T1. rewrite T1. cbn [app]. apply (IH js); auto.
Qed.
Lemma run_calls ne hash o ops : forall bs outs m, MInv hash o (mk_multi o bs) -> Forall order_ok ops -> ma_run ne hash (mk_multi o bs) ops = Ok (outs, m) ->
  exists ds, map fst ds = ops /\ outs = map (fun d => answer (fst d) (snd d)) ds /\ Forall (fun d => length (snd d) = length (secs (ma_hash o) (fst d))) ds /\
    flat_map mrecs outs = flat_map (fun d => flat_map mrecs (snd d)) ds /\ turns ne hash o bs (flat_map (fun d => combine (secs (ma_hash o) (fst d)) (snd d)) ds) (mu_list m).
Proof.
  induction ops as [|op ops IH]; intros bs outs m I HO E; cbn [ma_run] in E.
  - injection E as <- <-. exists []. repeat split; constructor.
  - inversion HO as [|? ? O1 O2]; subst. destruct (ma_do ne hash op (mk_multi o bs)) as [[o1 m1]| |] eqn:ED; cbn [bind] in E; try discriminate.
    destruct (ma_run ne hash m1 ops) as [[os2 m2]| |] eqn:ER; cbn [bind] in E; try discriminate. injection E as <- <-.
    destruct (call_turns ne hash o op bs o1 m1 I ED) as (rs & T & L & A).
    assert (R1 : ma_run ne hash (mk_multi o bs) [op] = Ok ([o1], m1)) by (cbn [ma_run]; rewrite ED; reflexivity).
    destruct (ma_run_sim ne hash o [op] _ _ _ I (Forall_cons _ O1 (Forall_nil _)) R1) as [I1 _]. pose proof (mi_opt _ _ _ I1) as EO. destruct m1 as [o2 bs1]. cbn in EO. subst o2.
    destruct (IH bs1 os2 m2 I1 O2 ER) as (ds & D1 & D2 & D3 & D4 & D5). exists ((op, rs) :: ds). cbn [map flat_map fst snd]. rewrite D1, D4, <- D2, <- A.
    split; auto. split; auto. split; [constructor; auto|]. split; [|eapply turns_app; eauto]. rewrite A, (answer_recs ne hash o bs op rs _ T L). reflexivity.
Qed.
Lemma flat_combine_fst {A B D} (f : A -> list B) (ds : list (A * list D)) : Forall (fun d => length (snd d) = length (f (fst d))) ds ->
  map fst (flat_map (fun d => combine (f (fst d)) (snd d)) ds) = flat_map f (map fst ds).
Proof.
  induction 1 as [|[a l] ds L _ IH]; cbn [flat_map map fst snd] in *; auto. rewrite map_app, IH. f_equal. clear - L. revert L. generalize (f a) as b. revert l.
  induction l as [|x l IH]; intros [|y b] L; cbn in *; try discriminate; auto. now rewrite IH by lia.
Qed.
Lemma combine_map_ok {A B} (a : list A) (l : list B) : map (fun x : A * B => (fst x, Ok (snd x))) (combine a l) = combine a (map (@Ok B) l).
Proof. revert l. induction a as [|x a IH]; intros [|y l]; cbn; auto. now rewrite IH. Qed.
Lemma same_results {A B D} (f : A -> list B) (ds es : list (A * list D)) : map fst ds = map fst es -> Forall (fun d => length (snd d) = length (f (fst d))) ds -> Forall (fun d => length (snd d) = length (f (fst d))) es ->
  flat_map (fun d => combine (f (fst d)) (snd d)) ds = flat_map (fun d => combine (f (fst d)) (snd d)) es -> ds = es.
Proof.
  revert es. induction ds as [|[a l] ds IH]; intros [|[b m] es] M F1 F2 E; cbn [map fst] in M; try discriminate; auto. injection M as <- M. inversion F1; inversion F2; subst. cbn [flat_map fst snd] in *.
  assert (L : length (combine (f a) l) = length (combine (f a) m)) by (rewrite !combine_length; lia).
  assert (E1 : combine (f a) l = combine (f a) m /\ flat_map (fun d => combine (f (fst d)) (snd d)) ds = flat_map (fun d => combine (f (fst d)) (snd d)) es).
  { clear - E L. revert L E. generalize (combine (f a) l) as u, (combine (f a) m) as v. induction u as [|x u IHu]; intros [|y v] L E; cbn in *; try discriminate; auto.
    injection E as -> E. destruct (IHu v) as [-> ?]; auto. }
  destruct E1 as [E1 E2]. rewrite (IH es) by auto. f_equal. f_equal. apply (f_equal (map snd)) in E1.
  assert (X : forall (u : list B) (v : list D), length v = length u -> map snd (combine u v) = v) by (clear; induction u as [|x u IHu]; intros [|y v] L; cbn in *; try discriminate; auto; now rewrite IHu by lia).
  rewrite !X in E1 by auto. exact E1.
Qed.

(** Handlers that leave the multi_aggregator alone: the calls answer, give their records and leave the shards as in the model without handlers. *)
Theorem C105_plain : forall ne hash o body, sections_of ne o body -> forall ops outs m, (0 < ma_hash o)%nat -> Forall order_ok ops -> ma_run ne hash (ma_new o) ops = Ok (outs, m) ->
  forall cs, map fst cs = ops -> Forall hc_quiet cs ->
  exists n evs ds, (forall k, (n <= k)%nat -> mr_run hash o body k cs = HEnd (evs, map Ok (mu_list m))) /\ mr_given evs = flat_map mrecs outs /\
    mr_done evs = map (fun d => (fst d, map Ok (snd d))) ds /\ map fst ds = ops /\ outs = map (fun d => answer (fst d) (snd d)) ds.
Proof.
  intros ne hash o body HB ops outs m HP HO R cs EC Q.
  destruct (run_calls ne hash o ops (mu_list (ma_new o)) outs m (MInv_new hash o HP) HO R) as (ds & D1 & D2 & D3 & D4 & D5).
  assert (AP : Forall (hc_apart (sec_at hash o) (secs (ma_hash o)) []) cs).
  { eapply Forall_impl; [|exact Q]. intros q H. apply Forall_forall. intros c _. split; [tauto|]. eapply Forall_impl; [|exact H]. intros b ->. constructor. constructor. }
  destruct (C105_returns hash o body cs HP AP) as (n & evs & os & E). specialize (E n (le_n n)) as E1.
  destruct (proj2 (proj2 (quiet_run (sec_at hash o) (secs (ma_hash o)) body mr_outs mr_fine (body_outs ne o body HB) n)) _ _ _ _ _ Q E1) as (M1 & M2 & M3 & M4).
  pose proof (run_exp ne hash o body HB n cs evs os E1) as (T & _).
  apply turns_in in D5. rewrite <- new_shards_map in D5.
  assert (FM : map (fun x : sec * mout => (fst x, Ok (snd x))) (flat_map (fun d : mop * list mout => combine (secs (ma_hash o) (fst d)) (snd d)) ds) =
    flat_map (fun d : mop * list (outcome mout) => combine (secs (ma_hash o) (fst d)) (snd d)) (map (fun d => (fst d, map Ok (snd d))) ds)).
  { clear. induction ds as [|d ds IH]; cbn [flat_map map fst snd]; auto. now rewrite map_app, IH, combine_map_ok. }
  rewrite FM in D5. assert (D3' : Forall (fun d : mop * list (outcome mout) => length (snd d) = length (secs (ma_hash o) (fst d))) (map (fun d => (fst d, map Ok (snd d))) ds)).
  { apply Forall_map. eapply Forall_impl; [|exact D3]. intros d. cbn. now rewrite map_length. }
  assert (MM : map fst (map (fun d : mop * list mout => (fst d, map (@Ok mout) (snd d))) ds) = map fst (mr_done evs)).
  { rewrite M1, EC, <- D1, map_map. reflexivity. }
  assert (D5' : in_turn (sec_at hash o) (alone body) (new_shards o) (flat_map (fun d => combine (secs (ma_hash o) (fst d)) (snd d)) (map (fun d => (fst d, map Ok (snd d))) ds)) (map Ok (mu_list m))).
  { eapply in_turn_ext; [|exact D5]. intros c s. symmetry. apply (body_alone ne o body HB). }
  destruct (in_turn_det (sec_at hash o) body _ _ _ D5' _ _ T) as [EL <-].
  { rewrite M2, !flat_combine_fst by auto. now rewrite MM. }
  rewrite M2 in EL. apply same_results in EL; auto.
  exists n, evs, ds. split; [exact E|]. split; [|auto]. rewrite D4, M4, <- EL.
  - clear. induction ds as [|d ds IH]; cbn [flat_map map fst snd]; auto. rewrite IH. f_equal. induction (snd d) as [|x l IH2]; cbn; auto. now rewrite IH2.
  - rewrite <- EL. apply Forall_map, Forall_forall. intros d _. cbn [snd]. apply Forall_map, Forall_forall. intros x _. now exists x.
Qed.
Print Assumptions C105_plain.

(** A handler that is given a record and makes any call that uses the shard the record comes from - a push or del of a name there, a pushout, a
    size() - never returns, and neither does the call that gave it the record. *)
Theorem C105_own_shard : forall ne hash o body, sections_of ne o body -> (0 < ma_hash o)%nat -> forall os op c t s out s' calls bs rest,
  length os = ma_hash o -> secs (ma_hash o) op = c :: t -> nth_error os (sec_at hash o c) = Some s -> sec_run ne o c s = (Ok out, s') -> mrecs out <> [] ->
  (exists q d, In q calls /\ In d (secs (ma_hash o) (fst q)) /\ sec_at hash o d = sec_at hash o c) ->
  exists n, forall k, (n <= k)%nat -> hr_calls (sec_at hash o) (secs (ma_hash o)) body k [] ((op, HBeh calls :: bs) :: rest) os = HSelf.
Proof.
  intros ne hash o body HB HP os op c t s out s' calls bs rest LO ES Es SR NE (q & d & Hq & Hd & Ed).
  destruct (all_end (sec_at hash o) (secs (ma_hash o)) body ((op, HBeh calls :: bs) :: rest) [] os) as [n H]. exists n.
  intros k L. rewrite (proj2 (proj2 (run_more _ _ _ n)) k [] _ os L H). clear k L.
  pose proof (proj1 (proj2 (proj2 (run_there (sec_at hash o) (secs (ma_hash o)) body (ma_hash o) (fun op => secs_at hash o op HP) n)) [] ((op, HBeh calls :: bs) :: rest) os LO)) as NN.
  assert (X : snd (fst (heval (body c) s)) <> []).
  { pose proof (HB c s) as B. destruct (heval (body c) s) as [[r l] s2]. destruct B as [B1 B2]. rewrite SR in B1. injection B1 as -> _. cbn [fst snd]. rewrite (B2 out eq_refl). exact NE. }
  pose proof (own_call (sec_at hash o) (secs (ma_hash o)) body n op c t (HBeh calls) bs rest os s ES Es X ltac:(exists q, d; split; [exact Hq|split; [exact Hd|left; auto]])) as NE2.
  destruct (hr_calls (sec_at hash o) (secs (ma_hash o)) body n [] ((op, HBeh calls :: bs) :: rest) os) as [x| | |]; auto; congruence.
Qed.
Print Assumptions C105_own_shard.

(** "The handler may push what it is given under another name": not if both names are on the same shard - a force_pushout whose handler adds each
    record of name a to a total under name b never returns. *)
Definition rx_push (n : name) (ts v : Z) : mop := MPush mx_e n (mx_d ts v) true.
Definition rx_flush : mop := MPushout true true (fun l => l).
Theorem C105_other_name_refuted : na <> nb /\ forall k, (20 <= k)%nat ->
  mr_run mx_hash mx_o (sec_body ne_rev mx_o) k [(rx_push na 108 4, []); (rx_flush, [HBeh [(rx_push nb 108 5, [])]])] = HSelf.
Proof.
  split; [discriminate|]. intros k L. unfold mr_run. refine (eq_trans (proj2 (proj2 (run_more _ _ _ 20)) k [] _ _ L _) _); vm_compute; [discriminate|reflexivity].
Qed.
Print Assumptions C105_other_name_refuted.
(** "force_pushout reports what the multi_aggregator holds when it is called": it also reports what its handler pushes to the shards it has not reached, ... *)
Theorem C105_snapshot_refuted : exists evs os a d rs,
  mr_run mx_hash mx_o (sec_body ne_rev mx_o) 200 [(rx_push na 108 4, []); (rx_flush, [HBeh [(rx_push nd 109 6, [])]])] = HEnd (evs, os) /\
  nth_error (mr_done evs) 2 = Some (rx_flush, map Ok rs) /\ answer rx_flush rs = MRecs [(na, a); (nd, d)] /\ mr_given evs = [(na, a); (nd, d)].
Proof. eexists _, _, _, _, [_; _; _]. split; [vm_compute; reflexivity|]. split; [vm_compute; reflexivity|]. split; vm_compute; reflexivity. Qed.
Print Assumptions C105_snapshot_refuted.
(** ... and "after force_pushout nothing is left": what its handler pushes to a shard it has passed stays. *)
Theorem C105_flushed_refuted : exists evs os rs d,
  mr_run mx_hash mx_o (sec_body ne_rev mx_o) 200 [(rx_push nd 109 6, []); (rx_flush, [HBeh [(rx_push na 108 4, [])]]); (MSize, [])] = HEnd (evs, os) /\
  map fst (mr_done evs) = [rx_push nd 109 6; rx_push na 108 4; rx_flush; MSize] /\
  nth_error (mr_done evs) 3 = Some (MSize, map Ok rs) /\ answer MSize rs = MSizes 2 2 /\ mr_given evs = [(nd, d)].
Proof. eexists _, _, [_; _; _], _. split; [vm_compute; reflexivity|]. split; [vm_compute; reflexivity|]. split; [vm_compute; reflexivity|]. split; vm_compute; reflexivity. Qed.
Print Assumptions C105_flushed_refuted.

(** ** Examples *)
(** The second push of name d closes a window; its handler pushes name a, which is on another shard; then everything is flushed. *)
Definition rx_cs : list (hcall mop) := [(rx_push nd 109 6, []); (rx_push nd 120 3, [HBeh [(rx_push na 108 4, [])]]); (rx_flush, [])].
Definition rx_secs : list sec := [SPush mx_e nd (mx_d 109 6) true; SPush mx_e na (mx_d 108 4) true; SPush mx_e nd (mx_d 120 3) true;
  SPop true true (fun l => l) 0; SPop true true (fun l => l) 1; SPop true true (fun l => l) 2].
Example C105_witness : sections_of ne_rev mx_o (sec_body ne_rev mx_o) /\ Forall (hc_apart (sec_at mx_hash mx_o) (secs (ma_hash mx_o)) []) rx_cs /\
  Forall (hc_all order_ok) rx_cs /\ Forall (hc_all (mop_safe gx_o)) rx_cs /\
  exists evs os l, mr_run mx_hash mx_o (sec_body ne_rev mx_o) 200 rx_cs = HEnd (evs, os) /\ all_defined evs l /\ map fst l = rx_secs /\
    map fst (mr_given evs) = [nd; na; nd] /\ map fst (mr_done evs) = [rx_push nd 109 6; rx_push na 108 4; rx_push nd 120 3; rx_flush] /\
    sec_fed nd l = [mx_d 109 6; mx_d 120 3] /\ Forall fed_typed (sec_fed nd l) /\ forward (so_step (ao_sep gx_o)) (map fed_time (sec_fed nd l)) /\
    (exists l1 r, l = l1 ++ [(SPop true true (fun l => l) (shard_of mx_hash mx_o nd), r)]).
Proof.
  split; [apply sec_body_ok|]. split.
  { repeat constructor; try (vm_compute; tauto). vm_compute. intros [H|[]]; discriminate. }
  split; [repeat constructor; cbn; auto|]. split.
  { destruct C35_witness as (_ & S & _). unfold mx_ops in S. repeat (match goal with H : Forall _ (_ :: _) |- _ => inversion H; clear H; subst end).
    unfold rx_cs, rx_push. constructor; [split; [assumption|constructor]|]. constructor; [split; [assumption|]|].
    - constructor; [|constructor]. constructor. constructor; [|constructor]. split; [assumption|constructor].
    - constructor; [split; [reflexivity|constructor]|constructor]. }
  eexists _, _, [(_, _); (_, _); (_, _); (_, _); (_, _); (_, _)]. split; [vm_compute; reflexivity|]. split; [vm_compute; reflexivity|]. split; [reflexivity|]. split; [vm_compute; reflexivity|]. split; [vm_compute; reflexivity|].
  split; [vm_compute; reflexivity|]. split; [repeat constructor; vm_compute; try split; congruence|]. split; [vm_compute; repeat split; congruence|].
  eexists [_; _; _; _; _], _. reflexivity.
Qed.
(** After a push of name a, the next one closes a window: its handler asks for the size. *)
Example C105_own_shard_witness : exists evs os b out b', mr_run mx_hash mx_o (sec_body ne_rev mx_o) 200 [(rx_push na 108 4, [])] = HEnd (evs, os) /\ length os = ma_hash mx_o /\
  nth_error os (sec_at mx_hash mx_o (SPush mx_e na (mx_d 113 7) true)) = Some (Ok b) /\ sec_run ne_rev mx_o (SPush mx_e na (mx_d 113 7) true) (Ok b) = (Ok out, b') /\ mrecs out <> [] /\
  (exists q d, In q [(MSize, @nil (hbeh mop))] /\ In d (secs (ma_hash mx_o) (fst q)) /\ sec_at mx_hash mx_o d = sec_at mx_hash mx_o (SPush mx_e na (mx_d 113 7) true)).
Proof.
  eexists _, _, _, _, _. split; [vm_compute; reflexivity|]. split; [reflexivity|]. split; [vm_compute; reflexivity|]. split; [vm_compute; reflexivity|]. split; [discriminate|].
  exists (MSize, []), (SSize 1). split; [left; reflexivity|]. split; [right; left; reflexivity|vm_compute; reflexivity].
Qed.
