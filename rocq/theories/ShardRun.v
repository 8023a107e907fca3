(** Sections one after the other: one name at a time, and whole calls. *)
From Coq Require Import ZArith List Bool Arith Lia Ascii Permutation.
From Verif Require Import Base ModelTypes ModelReducer SpecReducer ModelSeparator SpecSeparator SepSpecProofs SepRun ModelAggregator SpecAggregator AggProofs AggRun AggFinal
  ModelRegistry RegProofs ModelMt ModelMulti SpecMulti MultiProofs MultiRun SpecSystem SystemProofs SpecRelay RelayProofs ModelShards SpecShards ShardProofs.
Import ListNotations.
Local Open Scope Z_scope.

Section Run.
  Variable ne : nat -> list Z -> list Z.
  Variable hash : name -> Z.
  Variable o : maopts.
  Notation at_ := (sec_at hash o).
  Notation get := (ma_get hash o).
  Inductive turns : list bmulti -> list (sec * mout) -> list bmulti -> Prop :=
  | tu_nil bs : turns bs [] bs
  | tu_cons bs c r b b' t bs' : nth_error bs (at_ c) = Some b -> sec_do ne o c b = Ok (r, b') -> turns (set_nth (at_ c) b' bs) t bs' -> turns bs ((c, r) :: t) bs'.

  Lemma set_nth_map {A B} (f : A -> B) i x l : set_nth i (f x) (map f l) = map f (set_nth i x l).
  Proof. revert i. induction l as [|y l IH]; intros [|i]; simpl; auto. now rewrite IH. Qed.
  Lemma turns_ok l : forall bs os, in_turn at_ (sec_run ne o) (map Ok bs) (map (fun x => (fst x, Ok (snd x))) l) os -> exists bs', os = map Ok bs' /\ turns bs l bs'.
  Proof.
    induction l as [|[c r] l IH]; intros bs os H; inversion H as [|? ? ? b b' ? ? Hn Hr Ht]; subst; [exists bs; split; [auto|constructor]|].
    rewrite nth_error_map in Hn. destruct (nth_error bs (at_ c)) as [b0|] eqn:E; [|discriminate]. injection Hn as <-. cbn [sec_run] in Hr.
    destruct (sec_do ne o c b0) as [[r1 b1]| |] eqn:D; [|discriminate|discriminate]. injection Hr as -> <-.
    change (@set_nth (outcome bmulti)) with (@set_nth (outcome bmulti)) in Ht. rewrite set_nth_map in Ht. destruct (IH _ _ Ht) as (bs' & -> & T).
    exists bs'. split; auto. econstructor; eauto.
  Qed.

  Notation MI := (MInv hash o).
  Lemma sec_sim bs c r b b' n : MI (mk_multi o bs) -> sec_order_ok c -> nth_error bs (at_ c) = Some b -> sec_do ne o c b = Ok (r, b') ->
    MI (mk_multi o (set_nth (at_ c) b' bs)) /\
    match sec_call hash o n c with
    | Some k => kdo ne (ma_agg o) k (get (mk_multi o bs) n) = Ok (sec_view n c r, get (mk_multi o (set_nth (at_ c) b' bs)) n)
    | None => get (mk_multi o (set_nth (at_ c) b' bs)) n = get (mk_multi o bs) n /\ of_name n (mrecs r) = []
    end.
  Proof.
    intros I OK E D. destruct c as [e m d h|m|f h ord i|i]; cbn [sec_do sec_at sec_call sec_view] in *.
    - destruct (bm_push ne (ma_agg o) e m d h b) as [[[r0 l] b1]| |] eqn:P; cbn [bind] in D; try discriminate. injection D as <- <-.
      assert (X : ma_do ne hash (MPush e m d h) (mk_multi o bs) = Ok (MAns r0 l, mk_multi o (set_nth (shard_of hash o m) b1 bs))).
      { cbn [ma_do]. unfold ma_push. rewrite (pos_ok _ _ _ m I). cbn [bind]. unfold ma_shard. cbn [mu_list mu_opt]. rewrite E. cbn [bind]. rewrite P. reflexivity. }
      apply ma_do_sim with (o := o) in X as [J SI]; [|exact I|exact Logic.I]. split; auto. apply single_cell with (n := n) in SI. cbn [kcall kview] in SI.
      destruct (name_eqb n m); exact SI.
    - destruct (bm_del m b) as [r0 b1] eqn:P. injection D as <- <-.
      assert (X : ma_do ne hash (MDel m) (mk_multi o bs) = Ok (MAns r0 [], mk_multi o (set_nth (shard_of hash o m) b1 bs))).
      { cbn [ma_do]. unfold ma_del. rewrite (pos_ok _ _ _ m I). cbn [bind]. unfold ma_shard. cbn [mu_list mu_opt]. rewrite E. cbn [bind]. rewrite P. reflexivity. }
      apply ma_do_sim with (o := o) in X as [J SI]; [|exact I|exact Logic.I]. split; auto. apply single_cell with (n := n) in SI. cbn [kcall kview] in SI.
      destruct (name_eqb n m); exact SI.
    - destruct (bm_pushout ne f h ord b) as [[l b1]| |] eqn:P; cbn [bind] in D; try discriminate. injection D as <- <-.
      pose proof (mi_nd _ _ _ I _ _ E) as ND. destruct (pushout_spec ne f h ord b l b1 OK ND P) as (K & NL & HH & IL & FA).
      assert (LT : (i < length bs)%nat) by (apply nth_error_Some; congruence). split.
      { destruct I as [I1 I2 I3 I4 I5]. cbn [mu_list mu_opt] in *. constructor; cbn [mu_list mu_opt]; auto; [now rewrite set_nth_length| |].
        - intros j x H. rewrite (nth_set _ _ _ _ _ E) in H. destruct (Nat.eqb_spec j i) as [->|N]; [|eauto]. injection H as <-. rewrite K. auto.
        - intros j x k H. rewrite (nth_set _ _ _ _ _ E) in H. destruct (Nat.eqb_spec j i) as [->|N]; [|eauto]. injection H as <-. rewrite K. eauto. }
      assert (SI : single ne (ma_agg o) (MPushout f h ord) (fun n => bm_find n b) (MRecs l) (fun n => bm_find n b1)).
      { cbn [single]. split; auto. split; auto. split.
        - intros n0 a. rewrite IL. split; intros (g & g' & A & B); exists g, g'; (split; [exact A|]); rewrite pop1_call in *.
          + rewrite B. reflexivity.
          + destruct (pop1 ne f g) as [[a1 g1]| |]; cbn [bind] in B; try discriminate. congruence.
        - intros n0. specialize (FA n0). destruct (bm_find n0 b) as [g|]; auto. destruct FA as (a & g' & A & B). exists a, g'. rewrite pop1_call, A. auto. }
      apply single_cell with (n := n) in SI. cbn [kcall kview] in SI. unfold SpecMulti.ma_get. cbn [mu_list]. rewrite (nth_set _ _ _ _ _ E).
      rewrite (Nat.eqb_sym i). destruct (Nat.eqb_spec (shard_of hash o n) i) as [->|N].
      + rewrite E. exact SI.
      + split; auto. cbn [mrecs]. destruct (of_name n l) as [|x t] eqn:EO; auto. exfalso. assert (IN : In x (of_name n l)) by (rewrite EO; now left).
        apply of_name_in, IL in IN as (g & g' & A & _). apply N. apply (mi_key _ _ _ I i b n E). destruct (in_dec (list_eq_dec ascii_dec) n (keys b)) as [Q|Q]; auto.
        apply bm_find_none in Q. congruence.
    - injection D as <- <-. rewrite (set_nth_self _ _ _ E). auto.
  Qed.

  Lemma turns_name n bs l bs' : turns bs l bs' -> MI (mk_multi o bs) -> Forall (fun x => sec_order_ok (fst x)) l ->
    krun ne (ma_agg o) (get (mk_multi o bs) n) (map fst (sec_project hash o n l)) = Ok (map snd (sec_project hash o n l), get (mk_multi o bs') n).
  Proof.
    induction 1 as [bs|bs c r b b' t bs' E D T IH]; intros I OK; [reflexivity|]. inversion OK as [|? ? O1 O2]; subst. cbn [fst] in O1.
    destruct (sec_sim bs c r b b' n I O1 E D) as [J K]. specialize (IH J O2). unfold sec_project in *. cbn [flat_map fst snd].
    destruct (sec_call hash o n c) as [k|]; cbn [app map fst snd krun].
    - rewrite K. cbn [bind]. rewrite IH. reflexivity.
    - destruct K as [K _]. rewrite <- K. exact IH.
  Qed.

  (** ** Whole calls *)
  Lemma turns_app bs l1 bs1 l2 bs2 : turns bs l1 bs1 -> turns bs1 l2 bs2 -> turns bs (l1 ++ l2) bs2.
  Proof. induction 1; simpl; auto. intros H2. econstructor; eauto. Qed.
  Lemma pushes_turns h ps : forall bs b l m, MI (mk_multi o bs) -> ma_multi_push ne hash ps h (mk_multi o bs) = Ok (b, l, m) ->
    exists rs, turns bs (combine (map (fun p => SPush (fst p) (fst (snd p)) (snd (snd p)) h) ps) rs) (mu_list m) /\ length rs = length ps /\ b = true /\ l = flat_map mrecs rs /\ mu_opt m = o.
  Proof.
    induction ps as [|[e [n d]] ps IH]; intros bs b l m I E; cbn [ma_multi_push] in E.
    - injection E as <- <- <-. exists []. repeat split; constructor.
    - destruct (ma_push ne hash e n d h (mk_multi o bs)) as [[[r0 l1] m1]| |] eqn:P; cbn [bind] in E; try discriminate.
      destruct (ma_multi_push ne hash ps h m1) as [[[r1 l2] m2]| |] eqn:Q; cbn [bind] in E; try discriminate. injection E as <- <- <-.
      pose proof (push_sim _ _ _ _ _ _ _ _ _ _ _ I P) as [J _]. unfold ma_push in P. rewrite (pos_ok _ _ _ n I) in P. cbn [bind] in P.
      unfold ma_shard in P. cbn [mu_list mu_opt] in P. destruct (nth_error bs (shard_of hash o n)) as [b0|] eqn:EB; cbn [bind] in P; [|discriminate].
      destruct (bm_push ne (ma_agg o) e n d h b0) as [[[r2 l0] b1]| |] eqn:PB; cbn [bind] in P; try discriminate. injection P as <- <- <-.
      destruct (IH _ _ _ _ J Q) as (rs & T & L & -> & -> & O2). exists (MAns r2 l0 :: rs). cbn [map combine fst snd length flat_map mrecs]. split; [|auto].
      econstructor; [exact EB| |exact T]. cbn [sec_do]. rewrite PB. reflexivity.
  Qed.
  Lemma set_nth_app {A} (a : list A) x y c : set_nth (length a) x (a ++ y :: c) = a ++ x :: c.
  Proof. induction a as [|z a IH]; simpl; auto. now rewrite IH. Qed.
  Lemma pushout_turns f h ord t : forall a l t1, ma_shards ne f h ord t = Ok (l, t1) ->
    exists rs, turns (a ++ t) (combine (map (SPop f h ord) (seq (length a) (length t))) rs) (a ++ t1) /\ length rs = length t /\ l = flat_map mrecs rs.
  Proof.
    induction t as [|b t IH]; intros a l t1 E; cbn [ma_shards] in E.
    - injection E as <- <-. exists []. repeat split; constructor.
    - destruct (bm_pushout ne f h ord b) as [[l1 b1]| |] eqn:P; cbn [bind] in E; try discriminate.
      destruct (ma_shards ne f h ord t) as [[l2 t2]| |] eqn:Q; cbn [bind] in E; try discriminate. injection E as <- <-.
      destruct (IH (a ++ [b1]) _ _ eq_refl) as (rs & T & L & ->). rewrite app_length in T. cbn [length] in T. rewrite Nat.add_1_r, <- !app_assoc in T. cbn [app] in T.
      exists (MRecs l1 :: rs). cbn [length seq map combine flat_map mrecs]. split; [|auto].
      econstructor; [cbn [sec_at]; rewrite nth_error_app2, Nat.sub_diag by lia; reflexivity|cbn [sec_do]; rewrite P; reflexivity|]. cbn [sec_at]. rewrite set_nth_app. exact T.
  Qed.
  Lemma size_turns t : forall a, exists rs, turns (a ++ t) (combine (map SSize (seq (length a) (length t))) rs) (a ++ t) /\ length rs = length t /\ rs = map (fun b => MSizes (bm_size b) (bm_data_size b)) t.
  Proof.
    induction t as [|b t IH]; intros a; [exists []; repeat split; constructor|]. destruct (IH (a ++ [b])) as (rs & T & L & ->).
    rewrite app_length in T. cbn [length] in T. rewrite Nat.add_1_r, <- !app_assoc in T. cbn [app] in T. eexists. cbn [length seq map combine]. split; [|split; [|reflexivity]]; [|cbn; auto].
    econstructor; [cbn [sec_at]; rewrite nth_error_app2, Nat.sub_diag by lia; reflexivity|reflexivity|]. cbn [sec_at]. rewrite set_nth_app. exact T.
  Qed.
  Lemma call_turns op bs out m : MI (mk_multi o bs) -> ma_do ne hash op (mk_multi o bs) = Ok (out, m) ->
    exists rs, turns bs (combine (secs (ma_hash o) op) rs) (mu_list m) /\ length rs = length (secs (ma_hash o) op) /\ out = answer op rs.
  Proof.
    intros I E. pose proof (mi_len _ _ _ I) as L. cbn [mu_list] in L. destruct op as [e n d h|ps h|n|f h ord|]; cbn [ma_do] in E.
    - destruct (ma_push ne hash e n d h (mk_multi o bs)) as [[[r0 l1] m1]| |] eqn:P; cbn [bind] in E; try discriminate. injection E as <- <-.
      destruct (pushes_turns h [(e, (n, d))] bs true l1 m1 I) as (rs & T & LL & _ & _ & _); [cbn [ma_multi_push]; rewrite P; cbn [bind ma_multi_push]; now rewrite app_nil_r|].
      destruct rs as [|r [|]]; try discriminate. cbn [map combine fst snd] in T. exists [r]. split; [exact T|]. split; [auto|]. cbn [answer].
      inversion T as [|? ? ? b b' ? ? Hn Hd _]; subst. cbn [sec_do sec_at] in *. unfold ma_push in P. rewrite (pos_ok _ _ _ n I) in P. cbn [bind] in P. unfold ma_shard in P. cbn [mu_list mu_opt] in P.
      rewrite Hn in P. cbn [bind] in P. destruct (bm_push ne (ma_agg o) e n d h b) as [[[r2 l0] b1]| |]; cbn [bind] in *; try discriminate. injection Hd as <- _. injection P as -> -> _. reflexivity.
    - destruct (ma_multi_push ne hash ps h (mk_multi o bs)) as [[[r0 l1] m1]| |] eqn:P; cbn [bind] in E; try discriminate. injection E as <- <-.
      destruct (pushes_turns h ps bs r0 l1 m1 I P) as (rs & T & LL & -> & -> & _). exists rs. cbn [secs answer]. rewrite map_length. auto.
    - destruct (ma_del hash n (mk_multi o bs)) as [[r0 m1]| |] eqn:P; cbn [bind] in E; try discriminate. injection E as <- <-.
      unfold ma_del in P. rewrite (pos_ok _ _ _ n I) in P. cbn [bind] in P. unfold ma_shard in P. cbn [mu_list mu_opt] in P.
      destruct (nth_error bs (shard_of hash o n)) as [b0|] eqn:EB; cbn [bind] in P; [|discriminate]. destruct (bm_del n b0) as [r1 b1] eqn:D. injection P as <- <-.
      exists [MAns r1 []]. cbn [secs combine answer length]. split; [|auto]. econstructor; [exact EB|cbn [sec_do]; rewrite D; reflexivity|constructor].
    - unfold ma_pushout in E. cbn [mu_list mu_opt] in E. destruct (ma_shards ne f h ord bs) as [[l bs1]| |] eqn:P; cbn [bind] in E; try discriminate. injection E as <- <-.
      destruct (pushout_turns f h ord bs [] _ _ P) as (rs & T & LL & ->). cbn [app length] in T. rewrite L in T. exists rs. cbn [secs answer mu_list]. rewrite map_length, seq_length. split; auto. split; auto. congruence.
    - injection E as <- <-. destruct (size_turns bs []) as (rs & T & LL & ->). cbn [app length] in T. rewrite L in T. exists (map (fun b => MSizes (bm_size b) (bm_data_size b)) bs).
      cbn [secs answer mu_list]. rewrite !map_length, seq_length, !map_map. split; auto.
  Qed.

  (** ** What was pushed and what was handed out *)
  Hypothesis Hne : nth_element_ok ne.
  Hypothesis Hs : 0 < so_step (ao_sep (ma_agg o)).
  Notation cinv st := (cell_inv ne (ma_agg o) st true).
  Lemma kpush_any st e d c b l g S G T : cinv st c S G T -> kpush ne (ma_agg o) e d c = Ok (b, l, g) -> fed_typed d -> (st = true -> T <= fed_time d) ->
    cinv st (Some g) (S ++ [OpAddRed d]) (G ++ l) (fed_time d).
  Proof.
    destruct st; intros C E TY HT; [eapply RelayProofs.kpush_inv; eauto|]. unfold kpush in E.
    assert (X : exists g0 T0, match c with Some g => Ok g | None => agg_new (ma_agg o) (pe_clock e) (pe_rnd e) (ri_ts (rd_info d)) end = Ok g0 /\ cinv false (Some g0) S G T0).
    { destruct c as [g0|]; [exists g0, T; auto|]. destruct (agg_new _ _ _ _) as [g0| |] eqn:EN; cbn [bind] in E; try discriminate. exists g0. eexists. split; auto.
      destruct (new_cell ne (ma_agg o) Hs false true _ _ _ g0 S G T EN C) as [A _]; [discriminate|]. exact A. }
    destruct X as (g0 & T0 & E0 & C0). rewrite E0 in E. cbn [bind] in E.
    destruct (g_call ne (GoPush (SmRed d) true (pe_c1 e) (pe_c2 e)) g0) as [[r g1]| |] eqn:EC; cbn [bind] in E; try discriminate. injection E as <- <- <-.
    assert (OK := call_cell ne Hne (ma_agg o) Hs false true (GoPush (SmRed d) true (pe_c1 e) (pe_c2 e)) g0 S G T0 r g1 C0 (conj TY Logic.I) Logic.I EC).
    specialize (OK ltac:(discriminate) ltac:(auto)). simpl op_sent in OK. simpl op_got in OK. destruct OK as (groups & lost & held & F & HC & P & _).
    apply Forall2_app_inv_r in F as (q1 & q2 & F1 & F2 & EQ). apply (later_cell ne (ma_agg o) Hs false true _ _ _ (last (op_times (ma_agg o) (GoPush (SmRed d) true (pe_c1 e) (pe_c2 e))) T0)); [discriminate|].
    exists groups, lost, held. split; [rewrite EQ; apply Forall2_app; auto using wr_no_perc|]. split; [exact HC|]. split; [exact P|discriminate].
  Qed.
  Lemma pop_any st f g r g1 S G T : cinv st (Some g) S G T -> g_call ne (pop_call f) g = Ok (r, g1) ->
    cinv st (Some g1) S (G ++ match out_ptr r with Some a => [a] | None => [] end) T.
  Proof.
    intros C E. assert (OK := call_cell ne Hne (ma_agg o) Hs st true (pop_call f) g S G T r g1 C).
    destruct f; simpl in OK; rewrite app_nil_r in OK; apply OK; auto.
  Qed.
  Lemma sec_inv st n bs c r b b' S G T : MI (mk_multi o bs) -> sec_order_ok c -> nth_error bs (at_ c) = Some b -> sec_do ne o c b = Ok (r, b') ->
    cinv st (get (mk_multi o bs) n) S G T -> Forall fed_typed (sec_fed1 n c) -> (st = true -> c <> SDel n /\ forward T (map fed_time (sec_fed1 n c))) ->
    cinv st (get (mk_multi o (set_nth (at_ c) b' bs)) n) (S ++ map OpAddRed (sec_fed1 n c)) (G ++ of_name n (mrecs r)) (last (map fed_time (sec_fed1 n c)) T).
  Proof.
    intros I OK E D C TY ST. destruct (sec_sim bs c r b b' n I OK E D) as [_ K]. generalize dependent (get (mk_multi o (set_nth (at_ c) b' bs)) n). intros c1 K.
    destruct c as [e m d h|m|f h ord i|i]; cbn [sec_call sec_fed1 sec_do] in *.
    - destruct (bm_push ne (ma_agg o) e m d h b) as [[[r0 l] b1]| |]; cbn [bind] in D; try discriminate. injection D as <- <-. cbn [sec_view mrecs] in *. destruct (name_eqb n m).
      + cbn [kdo] in K. destruct (kpush ne (ma_agg o) e d (get (mk_multi o bs) n)) as [[[b1' l1] g]| |] eqn:EK; cbn [bind] in K; try discriminate. injection K as _ <- <-.
        inversion TY; subst. cbn [map last]. eapply kpush_any; eauto. intros X. apply ST in X as [_ X]. simpl in X. tauto.
      + destruct K as [-> ->]. simpl. rewrite !app_nil_r. exact C.
    - destruct (bm_del m b) as [r0 b1]. injection D as <- <-. cbn [sec_view mrecs map of_name filter last] in *. rewrite !app_nil_r. destruct (name_eqb_spec n m) as [->|N].
      + cbn [kdo] in K. injection K as _ <-. destruct st; [destruct (ST eq_refl); congruence|]. eapply kill_inv; eauto.
      + destruct K as [-> _]. exact C.
    - destruct (bm_pushout ne f h ord b) as [[l b1]| |]; cbn [bind] in D; try discriminate. injection D as <- <-. cbn [sec_view mrecs map last] in *. rewrite app_nil_r. destruct (Nat.eqb_spec i (shard_of hash o n)).
      + cbn [kdo] in K. destruct (get (mk_multi o bs) n) as [g|].
        * destruct (g_call ne (pop_call f) g) as [[r1 g1]| |] eqn:EC; cbn [bind] in K; try discriminate. injection K as <- <-. eapply pop_any; eauto.
        * injection K as <- <-. rewrite app_nil_r. exact C.
      + destruct K as [-> ->]. rewrite app_nil_r. exact C.
    - destruct K as [-> ->]. simpl. rewrite !app_nil_r. exact C.
  Qed.
  Lemma turns_inv st n bs l bs' : turns bs l bs' -> forall S G T, MI (mk_multi o bs) -> Forall (fun x => sec_order_ok (fst x)) l -> cinv st (get (mk_multi o bs) n) S G T ->
    Forall fed_typed (sec_fed n l) -> (st = true -> ~ In (SDel n) (map fst l) /\ forward T (map fed_time (sec_fed n l))) ->
    MI (mk_multi o bs') /\ cinv st (get (mk_multi o bs') n) (S ++ map OpAddRed (sec_fed n l)) (G ++ sec_given n l) (last (map fed_time (sec_fed n l)) T).
  Proof.
    induction 1 as [bs|bs c r b b' t bs' E D TT IH]; intros S G T I OK C TY ST.
    - split; auto. unfold sec_fed, sec_given. simpl. rewrite !app_nil_r. exact C.
    - inversion OK as [|? ? O1 O2]; subst. cbn [fst] in O1. unfold sec_fed, sec_given in *. cbn [flat_map fst snd map] in *. rewrite map_app in *. apply Forall_app in TY as [T1 T2].
      assert (C1 : cinv st (get (mk_multi o (set_nth (at_ c) b' bs)) n) (S ++ map OpAddRed (sec_fed1 n c)) (G ++ of_name n (mrecs r)) (last (map fed_time (sec_fed1 n c)) T)).
      { apply (sec_inv st n bs c r b b'); auto. intros X. apply ST in X as [X Y]. apply forward_app in Y as [Y _]. split; auto. intros ->. apply X. now left. }
      destruct (sec_sim bs c r b b' n I O1 E D) as [J _].
      destruct (IH _ _ _ J O2 C1 T2) as [Q1 Q2]. { intros X. apply ST in X as [X Y]. apply forward_app in Y as [_ Y]. split; auto. intros Z. apply X. now right. }
      split; auto. rewrite map_app, of_name_app, !app_assoc, SystemProofs.last_app. exact Q2.
  Qed.
  Lemma cinv_none st T : so_step (ao_sep (ma_agg o)) <= T -> cinv st None [] [] T.
  Proof. intros H. exists [], [], []. repeat split; auto. Qed.
End Run.
