(** Handlers that call a multi_aggregator: the machine. *)
From Coq Require Import ZArith List Bool Arith Lia Ascii.
From Verif Require Import Base ModelTypes ModelReducer ModelSeparator SpecSeparator ModelAggregator SpecAggregator ModelRegistry RegProofs ModelMulti SpecMulti ModelShards SpecShards
  ShardProofs ModelMultiReenter SpecMultiReenter.
Import ListNotations.
Local Open Scope nat_scope.

Lemma set_nth_comm {A} i j (x y : A) l : i <> j -> set_nth i x (set_nth j y l) = set_nth j y (set_nth i x l).
Proof. revert i j. induction l as [|z l IH]; intros [|i] [|j] N; simpl; auto; try congruence. rewrite IH; auto. Qed.
Lemma set_nth_twice {A} i (x y : A) l : set_nth i x (set_nth i y l) = set_nth i x l.
Proof. revert i. induction l as [|z l IH]; intros [|i]; simpl; auto. now rewrite IH. Qed.
Lemma hbeh_ind2 {O} (P : hbeh O -> Prop) : (forall cs, Forall (fun q => Forall P (snd q)) cs -> P (HBeh cs)) -> forall b, P b.
Proof.
  intros H. fix IH 1. intros [cs]. apply H. induction cs as [|[op bs] cs IHc]; constructor; auto. cbn [snd]. induction bs; constructor; auto.
Qed.
Lemma hprog_ind2 {St R G} (P : hprog St R G -> Prop) : (forall r, P (HRet r)) -> (forall f, (forall s, P (snd (f s))) -> P (HDo f)) -> (forall x k, P k -> P (HGive x k)) -> forall p, P p.
Proof.
  intros H1 H2 H3. fix F 1. intros [r|f|x k]; [apply H1| |apply H3, F]. apply H2. intros s. destruct (f s) as [s' p']. apply (F p').
Qed.
Lemma subseq_app {A} (a1 a2 b1 b2 : list A) : subseq a1 b1 -> subseq a2 b2 -> subseq (a1 ++ a2) (b1 ++ b2).
Proof. induction 1 as [|x a l _ IH|x a l _ IH]; intros H; cbn [app]; auto; constructor; auto. Qed.
Lemma subseq_none {A} (l : list A) : subseq [] l.
Proof. induction l; constructor; auto. Qed.
Lemma subseq_right {A} (a l1 l2 : list A) : subseq a l2 -> subseq a (l1 ++ l2).
Proof. intros H. change a with ([] ++ a). apply subseq_app; auto using subseq_none. Qed.
Lemma subseq_left {A} (a l1 l2 : list A) : subseq a l1 -> subseq a (l1 ++ l2).
Proof. intros H. rewrite <- (app_nil_r a). apply subseq_app; auto using subseq_none. Qed.

Section Machine.
  Context {St C R G O : Type}.
  Variables (at_ : C -> nat) (parts : O -> list C) (body : C -> hprog St R G).
  Notation prog_ := (hr_prog at_ parts body).
  Notation secs_ := (hr_secs at_ parts body).
  Notation calls_ := (hr_calls at_ parts body).
  Notation ev := (hev C R G O).

  Lemma prog_S n held c bs p os : prog_ (S n) held c bs p os =
    match p with
    | HRet r => HEnd (r, bs, [], os)
    | HDo f => match nth_error os (at_ c) with None => HNone | Some s => let (s', p') := f s in prog_ n held c bs p' (set_nth (at_ c) s' os) end
    | HGive x k =>
        hbind (calls_ n held (match bs with HBeh cs :: _ => cs | [] => [] end) os) (fun '(evs, os1) =>
        hbind (prog_ n held c (tl bs) k os1) (fun '(r, bs', evs', os2) => HEnd (r, bs', EvGiven c x :: evs ++ evs', os2)))
    end.
  Proof. destruct p; reflexivity. Qed.
  Lemma secs_S n held bs cs os : secs_ (S n) held bs cs os =
    match cs with
    | [] => HEnd ([], [], os)
    | c :: t =>
        if existsb (Nat.eqb (at_ c)) held then HSelf
        else match nth_error os (at_ c) with
             | None => HNone
             | Some _ =>
                 hbind (prog_ n (at_ c :: held) c bs (body c) os) (fun '(r, bs', evs, os1) =>
                 hbind (secs_ n held bs' t os1) (fun '(rs, evs', os2) => HEnd (r :: rs, evs ++ EvSec c r :: evs', os2)))
             end
    end.
  Proof. destruct cs; reflexivity. Qed.
  Lemma calls_S n held cs os : calls_ (S n) held cs os =
    match cs with
    | [] => HEnd ([], os)
    | (op, bs) :: t =>
        hbind (secs_ n held bs (parts op) os) (fun '(rs, evs, os1) => hbind (calls_ n held t os1) (fun '(evs', os2) => HEnd (evs ++ EvDone op rs :: evs', os2)))
    end.
  Proof. destruct cs as [|[op bs] t]; reflexivity. Qed.
  (** * The bound *)
  Lemma run_more : forall n,
    (forall m held c bs p os, n <= m -> prog_ n held c bs p os <> HMore -> prog_ m held c bs p os = prog_ n held c bs p os) /\
    (forall m held bs cs os, n <= m -> secs_ n held bs cs os <> HMore -> secs_ m held bs cs os = secs_ n held bs cs os) /\
    (forall m held cs os, n <= m -> calls_ n held cs os <> HMore -> calls_ m held cs os = calls_ n held cs os).
  Proof.
    induction n as [|n (IP & IS & IC)]; [repeat split; intros; exfalso; match goal with H : _ <> HMore |- _ => now apply H end|].
    assert (X : forall m, S n <= m -> exists m', m = S m' /\ n <= m') by (intros [|m'] L; [lia|exists m'; split; [auto|lia]]).
    repeat split; intros m held; intros.
    - destruct (X m H) as (m' & -> & L). rewrite !prog_S in *. destruct p as [r|f|x k]; auto.
      + destruct (nth_error os (at_ c)) as [s|]; auto. destruct (f s) as [s' p']. auto.
      + destruct (calls_ n held (match bs with HBeh cs :: _ => cs | [] => [] end) os) as [[evs os1]| | |] eqn:EC; cbn [hbind] in *; try congruence; rewrite IC by (auto; rewrite ?EC; congruence); rewrite EC; cbn [hbind]; auto.
        destruct (prog_ n held c (tl bs) k os1) as [[[[r bs'] evs'] os2]| | |] eqn:EP; cbn [hbind] in *; try congruence; rewrite IP by (auto; rewrite ?EP; congruence); rewrite EP; reflexivity.
    - destruct (X m H) as (m' & -> & L). rewrite !secs_S in *. destruct cs as [|c t]; auto. destruct (existsb _ held); auto. destruct (nth_error os (at_ c)); auto.
      destruct (prog_ n (at_ c :: held) c bs (body c) os) as [[[[r bs'] evs] os1]| | |] eqn:EP; cbn [hbind] in *; try congruence; rewrite IP by (auto; rewrite ?EP; congruence); rewrite EP; cbn [hbind]; auto.
      destruct (secs_ n held bs' t os1) as [[[rs evs'] os2]| | |] eqn:ES; cbn [hbind] in *; try congruence; rewrite IS by (auto; rewrite ?ES; congruence); rewrite ES; reflexivity.
    - destruct (X m H) as (m' & -> & L). rewrite !calls_S in *. destruct cs as [|[op bs] t]; auto.
      destruct (secs_ n held bs (parts op) os) as [[[rs evs] os1]| | |] eqn:ES; cbn [hbind] in *; try congruence; rewrite IS by (auto; rewrite ?ES; congruence); rewrite ES; cbn [hbind]; auto.
      destruct (calls_ n held t os1) as [[evs' os2]| | |] eqn:EC; cbn [hbind] in *; try congruence; rewrite IC by (auto; rewrite ?EC; congruence); rewrite EC; reflexivity.
  Qed.

  (** * Programs end *)
  Definition fin_calls (cs : list (hcall O)) : Prop := forall held os, exists n, calls_ n held cs os <> HMore.
  Definition fin_beh (b : hbeh O) : Prop := match b with HBeh cs => fin_calls cs end.
  Lemma prog_ends held c p : forall bs os, Forall fin_beh bs -> exists n, prog_ n held c bs p os <> HMore.
  Proof.
    induction p as [r|f IH|x k IH] using hprog_ind2.
    - intros bs os _. exists 1. discriminate.
    - intros bs os F. destruct (nth_error os (at_ c)) as [s|] eqn:E; [|exists 1; rewrite prog_S; rewrite E; discriminate].
      destruct (IH s bs (set_nth (at_ c) (fst (f s)) os) F) as [n H]. exists (S n). rewrite prog_S. rewrite E. destruct (f s). exact H.
    - intros bs os F.
      assert (X : fin_calls (match bs with HBeh cs :: _ => cs | [] => [] end)). { destruct F as [|[cs] bs' Fb F]; [intros held' os'; exists 1; discriminate|exact Fb]. }
      destruct (X held os) as [n1 H1]. destruct (calls_ n1 held (match bs with HBeh cs :: _ => cs | [] => [] end) os) as [[evs os1]| | |] eqn:EC; try congruence; try (exists (S n1); rewrite prog_S; rewrite EC; discriminate).
      destruct (IH (tl bs) os1) as [n2 H2]; [destruct F; simpl; auto|]. exists (S (n1 + n2)). rewrite prog_S.
      rewrite (proj2 (proj2 (run_more n1))) by (lia || congruence). rewrite EC. cbn [hbind]. rewrite (proj1 (run_more n2)) by (lia || congruence).
      destruct (prog_ n2 held c (tl bs) k os1) as [[[[r bs'] evs'] os2]| | |]; cbn; congruence.
  Qed.
  Lemma prog_rest n : forall held c p bs os r bs' evs os', prog_ n held c bs p os = HEnd (r, bs', evs, os') -> forall P : hbeh O -> Prop, Forall P bs -> Forall P bs'.
  Proof.
    induction n as [|n IH]; intros held c p bs os r bs' evs os' E P F; [discriminate|]. rewrite prog_S in E. destruct p as [r0|f|x k].
    - injection E as <- <- <- <-. auto.
    - destruct (nth_error os (at_ c)); [|discriminate]. destruct (f s). eauto.
    - destruct (calls_ n held (match bs with HBeh cs :: _ => cs | [] => [] end) os) as [[evs1 os1]| | |]; cbn [hbind] in E; try discriminate.
      destruct (prog_ n held c (tl bs) k os1) as [[[[r1 bs1] evs2] os2]| | |] eqn:EP; cbn [hbind] in E; try discriminate. injection E as <- <- <- <-.
      eapply IH; [exact EP|]. destruct F; simpl; auto.
  Qed.
  Lemma secs_end cs : forall held bs os, Forall fin_beh bs -> exists n, secs_ n held bs cs os <> HMore.
  Proof.
    induction cs as [|c t IH]; intros held bs os F; [exists 1; discriminate|]. destruct (existsb (Nat.eqb (at_ c)) held) eqn:EX; [exists 1; rewrite secs_S; rewrite EX; discriminate|].
    destruct (nth_error os (at_ c)) as [s|] eqn:Es; [|exists 1; rewrite secs_S; rewrite EX, Es; discriminate].
    destruct (prog_ends (at_ c :: held) c (body c) bs os F) as [n1 H1].
    destruct (prog_ n1 (at_ c :: held) c bs (body c) os) as [[[[r bs'] evs] os1]| | |] eqn:EP; try congruence; try (exists (S n1); rewrite secs_S; rewrite EX, Es, EP; discriminate).
    destruct (IH held bs' os1 (prog_rest _ _ _ _ _ _ _ _ _ _ EP _ F)) as [n2 H2]. exists (S (n1 + n2)). rewrite secs_S. rewrite EX, Es.
    rewrite (proj1 (run_more n1)) by (lia || congruence). rewrite EP. cbn [hbind]. rewrite (proj1 (proj2 (run_more n2))) by (lia || congruence).
    destruct (secs_ n2 held bs' t os1) as [[[rs evs'] os2]| | |]; cbn; congruence.
  Qed.
  Lemma calls_end cs : Forall (fun q => Forall fin_beh (snd q)) cs -> fin_calls cs.
  Proof.
    induction 1 as [|[op bs] t F _ IH]; intros held os; [exists 1; discriminate|]. cbn [snd] in F. destruct (secs_end (parts op) held bs os F) as [n1 H1].
    destruct (secs_ n1 held bs (parts op) os) as [[[rs evs] os1]| | |] eqn:ES; try congruence; try (exists (S n1); rewrite calls_S; rewrite ES; discriminate).
    destruct (IH held os1) as [n2 H2]. exists (S (n1 + n2)). rewrite calls_S. rewrite (proj1 (proj2 (run_more n1))) by (lia || congruence). rewrite ES. cbn [hbind].
    rewrite (proj2 (proj2 (run_more n2))) by (lia || congruence). destruct (calls_ n2 held t os1) as [[evs' os2]| | |]; cbn; congruence.
  Qed.
  Lemma all_end cs : fin_calls cs.
  Proof.
    assert (B : forall b, fin_beh b) by (apply hbeh_ind2; intros l F; apply calls_end; exact F).
    apply calls_end. induction cs; constructor; auto. apply Forall_forall. auto.
  Qed.

  (** * The sections one after the other *)
  Definition alone (c : C) (s : St) : R * St := let '(r, _, s') := heval (body c) s in (r, s').
  Lemma in_turn_join os a os1 b os2 : in_turn at_ alone os a os1 -> in_turn at_ alone os1 b os2 -> in_turn at_ alone os (a ++ b) os2.
  Proof. induction 1; intros H2; cbn [app]; auto. econstructor; eauto. Qed.
  Lemma in_turn_set j x : forall os l os', in_turn at_ alone os l os' -> Forall (fun q => at_ (fst q) <> j) l ->
    in_turn at_ alone (set_nth j x os) l (set_nth j x os').
  Proof.
    induction 1 as [os|os c r o o' t os' E A T IH]; intros F; [constructor|]. inversion F as [|? ? F1 F2]; subst. cbn [fst] in F1.
    econstructor; [|exact A|]. 
    - rewrite <- E. clear - F1. revert os j F1. generalize (at_ c) as i. intros i os. revert i. induction os as [|y os IH]; intros [|i] [|j] N; simpl; auto; congruence.
    - rewrite set_nth_comm by auto. auto.
  Qed.
  Lemma in_turn_keeps j : forall os l os', in_turn at_ alone os l os' -> Forall (fun q => at_ (fst q) <> j) l -> nth_error os' j = nth_error os j.
  Proof.
    induction 1 as [os|os c r o o' t os' E A T IH]; intros F; auto. inversion F as [|? ? F1 F2]; subst. cbn [fst] in F1. rewrite IH by auto.
    rewrite (nth_set _ _ _ _ _ E). destruct (Nat.eqb_spec j (at_ c)); congruence.
  Qed.
  Definition given_by (j : nat) (evs : list ev) : list G :=
    flat_map (fun e => match e with EvGiven c x => if at_ c =? j then [x] else [] | _ => [] end) evs.
  Lemma given_by_app j a b : given_by j (a ++ b) = given_by j a ++ given_by j b.
  Proof. apply flat_map_app. Qed.
  Lemma mr_secs_app (a b : list ev) : mr_secs (a ++ b) = mr_secs a ++ mr_secs b.
  Proof. apply flat_map_app. Qed.
  Lemma mr_given_app (a b : list ev) : mr_given (a ++ b) = mr_given a ++ mr_given b.
  Proof. apply flat_map_app. Qed.
  Lemma mr_done_app (a b : list ev) : mr_done (a ++ b) = mr_done a ++ mr_done b.
  Proof. apply flat_map_app. Qed.

  Variable outs : R -> list G.
  Variable fine : R -> Prop.
  Hypothesis Hb : forall c s, let '(r, l, _) := heval (body c) s in fine r -> l = outs r.
  Definition at_shard_outs (j : nat) (l : list (C * R)) : list G := flat_map (fun q => if at_ (fst q) =? j then outs (snd q) else []) l.
  (** The sections of [evs] took [os] to [os'] one after the other, none of them on a shard in [held]; each handler was given what its section reports. *)
  Definition explained (held : list nat) (os : list St) (evs : list ev) (os' : list St) : Prop :=
    in_turn at_ alone os (mr_secs evs) os' /\ Forall (fun q => ~ In (at_ (fst q)) held) (mr_secs evs) /\
    (forall j, In j held -> given_by j evs = []) /\
    (Forall (fun q => fine (snd q)) (mr_secs evs) -> forall j, given_by j evs = at_shard_outs j (mr_secs evs)) /\
    (forall op rs, In (op, rs) (mr_done evs) -> length rs = length (parts op) /\ subseq (combine (parts op) rs) (mr_secs evs)).
  Lemma explained_nil held os : explained held os [] os.
  Proof. repeat split; try constructor; cbn in *; tauto. Qed.
  Lemma explained_app held os a os1 b os2 : explained held os a os1 -> explained held os1 b os2 -> explained held os (a ++ b) os2.
  Proof.
    intros (A1 & A2 & A3 & A4 & A5) (B1 & B2 & B3 & B4 & B5). unfold explained. rewrite mr_secs_app. split; [eapply in_turn_join; eauto|]. split; [apply Forall_app; auto|].
    split; [intros j Hj; rewrite given_by_app, A3, B3; auto|]. split.
    - intros F j. apply Forall_app in F as [F1 F2]. rewrite given_by_app, A4, B4 by auto. unfold at_shard_outs. now rewrite flat_map_app.
    - intros op rs H. rewrite mr_done_app in H. apply in_app_or in H as [H|H]; [apply A5 in H|apply B5 in H]; destruct H as [L Q]; (split; [exact L|]);
        [now apply subseq_left|now apply subseq_right].
  Qed.
  Lemma explained_held held held' os a os' : incl held' held -> explained held os a os' -> explained held' os a os'.
  Proof.
    intros I (A1 & A2 & A3 & A4 & A5). split; auto. split; [eapply Forall_impl; [|exact A2]; cbn; intros q N H; apply N; auto|]. split; [intros j Hj; apply A3; auto|]. auto.
  Qed.
  Lemma run_explained : forall n,
    (forall held c bs p os r bs' evs os' s, In (at_ c) held -> nth_error os (at_ c) = Some s -> prog_ n held c bs p os = HEnd (r, bs', evs, os') ->
      exists l s' os1, heval p s = (r, l, s') /\ os' = set_nth (at_ c) s' os1 /\ in_turn at_ alone os (mr_secs evs) os1 /\
        Forall (fun q => ~ In (at_ (fst q)) held) (mr_secs evs) /\ given_by (at_ c) evs = l /\
        (forall j, In j held -> j <> at_ c -> given_by j evs = []) /\
        (Forall (fun q => fine (snd q)) (mr_secs evs) -> forall j, j <> at_ c -> given_by j evs = at_shard_outs j (mr_secs evs)) /\
        (forall op rs, In (op, rs) (mr_done evs) -> length rs = length (parts op) /\ subseq (combine (parts op) rs) (mr_secs evs))) /\
    (forall held bs cs os rs evs os', secs_ n held bs cs os = HEnd (rs, evs, os') ->
      explained held os evs os' /\ length rs = length cs /\ subseq (combine cs rs) (mr_secs evs)) /\
    (forall held cs os evs os', calls_ n held cs os = HEnd (evs, os') -> explained held os evs os').
  Proof.
    induction n as [|n (IP & IS & IC)]; [repeat split; intros; discriminate|]. split; [|split].
    - intros held c bs p os r bs' evs os' s Hc Es E. rewrite prog_S in E. destruct p as [r0|f|x k].
      + injection E as <- <- <- <-. exists [], s, os. cbn. split; auto. split; [symmetry; apply set_nth_self; auto|]. repeat split; try constructor; try tauto.
      + rewrite Es in E. destruct (f s) as [s1 p1] eqn:Ef.
        assert (E1 : nth_error (set_nth (at_ c) s1 os) (at_ c) = Some s1) by (rewrite (nth_set _ _ _ _ s Es), Nat.eqb_refl; reflexivity).
        destruct (IP held c bs p1 _ _ _ _ _ s1 Hc E1 E) as (l & s' & os1 & H1 & H2 & H3 & H4 & H5 & H6 & H7 & H8).
        exists l, s', (set_nth (at_ c) s os1). cbn [heval]. rewrite Ef. split; auto. split; [rewrite set_nth_twice; auto|]. split; auto.
        replace os with (set_nth (at_ c) s (set_nth (at_ c) s1 os)) at 1 by (rewrite set_nth_twice; apply set_nth_self; auto).
        apply in_turn_set; auto. eapply Forall_impl; [|exact H4]. cbn. intros q N EQ. apply N. rewrite EQ. auto.
      + destruct (calls_ n held (match bs with HBeh cs :: _ => cs | [] => [] end) os) as [[evs1 os1]| | |] eqn:EC; cbn [hbind] in E; try discriminate.
        destruct (prog_ n held c (tl bs) k os1) as [[[[r1 bs1] evs2] os2]| | |] eqn:EP; cbn [hbind] in E; try discriminate. injection E as <- <- <- <-.
        apply IC in EC as (A1 & A2 & A3 & A4 & A5).
        assert (K : nth_error os1 (at_ c) = Some s). { rewrite (in_turn_keeps (at_ c) _ _ _ A1); auto. eapply Forall_impl; [|exact A2]. cbn. intros q N EQ. apply N. rewrite EQ. auto. }
        destruct (IP held c _ k _ _ _ _ _ s Hc K EP) as (l & s' & os3 & H1 & H2 & H3 & H4 & H5 & H6 & H7 & H8).
        change (EvGiven c x :: evs1 ++ evs2) with ([EvGiven c x] ++ (evs1 ++ evs2)). rewrite mr_secs_app. cbn [mr_secs flat_map app]. fold (mr_secs (evs1 ++ evs2)).
        exists (x :: l), s', os3. rewrite mr_secs_app. cbn [heval]. rewrite H1. split; auto. split; auto. split; [eapply in_turn_join; eauto|].
        split; [apply Forall_app; auto|]. split; [|split; [|split]].
        * change (given_by (at_ c) ([EvGiven c x] ++ evs1 ++ evs2) = x :: l). rewrite !given_by_app, (A3 _ Hc), H5. cbn. rewrite Nat.eqb_refl. reflexivity.
        * intros j Hj N. change (given_by j ([EvGiven c x] ++ evs1 ++ evs2) = []). rewrite !given_by_app, (A3 _ Hj), H6 by auto. cbn. destruct (Nat.eqb_spec (at_ c) j); [congruence|reflexivity].
        * intros F j N. apply Forall_app in F as [F1 F2]. change (given_by j ([EvGiven c x] ++ evs1 ++ evs2) = at_shard_outs j (mr_secs evs1 ++ mr_secs evs2)).
          rewrite !given_by_app, A4, H7 by auto. unfold at_shard_outs. rewrite flat_map_app. cbn. destruct (Nat.eqb_spec (at_ c) j); [congruence|reflexivity].
        * intros op rs H. change (In (op, rs) (mr_done (evs1 ++ evs2))) in H. rewrite mr_done_app in H. apply in_app_or in H as [H|H]; [apply A5 in H|apply H8 in H]; destruct H as [L Q]; (split; [exact L|]);
            [now apply subseq_left|now apply subseq_right].
    - intros held bs cs os rs evs os' E. rewrite secs_S in E. destruct cs as [|c t].
      + injection E as <- <- <-. split; [apply explained_nil|]. split; [reflexivity|constructor].
      + destruct (existsb (Nat.eqb (at_ c)) held) eqn:EX; [discriminate|].
        destruct (nth_error os (at_ c)) as [s|] eqn:Es; [|discriminate].
        destruct (prog_ n (at_ c :: held) c bs (body c) os) as [[[[r bs'] evs1] os1]| | |] eqn:EP; cbn [hbind] in E; try discriminate.
        destruct (secs_ n held bs' t os1) as [[[rs1 evs2] os2]| | |] eqn:ES; cbn [hbind] in E; try discriminate. injection E as <- <- <-.
        assert (NH : ~ In (at_ c) held). { intros H. apply Bool.not_true_iff_false in EX. apply EX, existsb_exists. exists (at_ c). split; auto. apply Nat.eqb_refl. }
        apply IS in ES as (A & L & Q). 
        destruct (IP (at_ c :: held) c bs (body c) os r bs' evs1 os1 s (or_introl eq_refl) Es EP) as (l & s' & os3 & H1 & H2 & H3 & H4 & H5 & H6 & H7 & H8).
        assert (B : explained held os (evs1 ++ [EvSec c r]) os1).
        { unfold explained. rewrite mr_secs_app. cbn [mr_secs flat_map app].
          assert (F0 : Forall (fun q => at_ (fst q) <> at_ c) (mr_secs evs1)) by (eapply Forall_impl; [|exact H4]; cbn; intros q N EQ; apply N; left; auto).
          split; [|split; [|split; [|split]]].
          - eapply in_turn_join; [exact H3|]. econstructor; [|unfold alone; rewrite H1; reflexivity|rewrite <- H2; constructor]. rewrite (in_turn_keeps (at_ c) _ _ _ H3 F0). exact Es.
          - apply Forall_app. split; [eapply Forall_impl; [|exact H4]; cbn; tauto|]. repeat constructor. exact NH.
          - intros j Hj. rewrite given_by_app. cbn [given_by flat_map app]. rewrite app_nil_r. apply H6; [now right|]. intros ->. auto.
          - intros F j. apply Forall_app in F as [F1 F2]. inversion F2 as [|? ? FR _]; subst. cbn [snd] in FR. rewrite given_by_app. unfold at_shard_outs. rewrite flat_map_app. cbn [given_by flat_map app fst snd].
            rewrite !app_nil_r. destruct (Nat.eqb_spec (at_ c) j) as [<-|N].
            + specialize (Hb c s). rewrite H1 in Hb. rewrite <- (Hb FR). assert (Z : flat_map (fun q => if at_ (fst q) =? at_ c then outs (snd q) else []) (mr_secs evs1) = []).
              { clear - F0. induction F0 as [|q l N _ IH]; cbn; auto. destruct (Nat.eqb_spec (at_ (fst q)) (at_ c)); [congruence|auto]. }
              rewrite Z. reflexivity.
            + rewrite app_nil_r. apply H7; auto.
          - intros op rs H. rewrite mr_done_app in H. cbn [mr_done flat_map app] in H. rewrite app_nil_r in H. apply H8 in H as [L1 Q1]. split; [exact L1|]. now apply subseq_left. }
        replace (evs1 ++ EvSec c r :: evs2) with ((evs1 ++ [EvSec c r]) ++ evs2) by (rewrite <- app_assoc; reflexivity).
        split; [eapply explained_app; eauto|]. split; [cbn [length]; congruence|]. rewrite !mr_secs_app. cbn [mr_secs flat_map app combine]. rewrite <- app_assoc. apply subseq_right. cbn [app]. constructor. exact Q.
    - intros held cs os evs os' E. rewrite calls_S in E. destruct cs as [|[op bs] t]; [injection E as <- <-; apply explained_nil|].
      destruct (secs_ n held bs (parts op) os) as [[[rs evs1] os1]| | |] eqn:ES; cbn [hbind] in E; try discriminate.
      destruct (calls_ n held t os1) as [[evs2 os2]| | |] eqn:EC; cbn [hbind] in E; try discriminate. injection E as <- <-.
      apply IS in ES as (A & L & Q). apply IC in EC.
      assert (B : explained held os (evs1 ++ [EvDone op rs]) os1).
      { destruct A as (A1 & A2 & A3 & A4 & A5). unfold explained. rewrite mr_secs_app, mr_done_app. cbn [mr_secs mr_done flat_map app]. rewrite app_nil_r. fold (mr_secs evs1). fold (mr_done evs1).
        split; auto. split; auto. split; [intros j Hj; rewrite given_by_app, A3 by auto; reflexivity|]. split; [intros F j; rewrite given_by_app, A4 by auto; cbn; apply app_nil_r|].
        intros op' rs' H. apply in_app_or in H as [H|[H|[]]]; [auto|]. injection H as <- <-. auto. }
      replace (evs1 ++ EvDone op rs :: evs2) with ((evs1 ++ [EvDone op rs]) ++ evs2) by (rewrite <- app_assoc; reflexivity). eapply explained_app; eauto.
  Qed.

  (** * Shards in use *)
  Lemma used_apart : forall n,
    (forall held bs cs os rs evs os', secs_ n held bs cs os = HEnd (rs, evs, os') -> Forall (fun c => ~ In (at_ c) held) cs) /\
    (forall held cs os evs os', calls_ n held cs os = HEnd (evs, os') -> Forall (fun q => Forall (fun c => ~ In (at_ c) held) (parts (fst q))) cs).
  Proof.
    induction n as [|n (IS & IC)]; [split; intros; discriminate|]. split.
    - intros held bs cs os rs evs os' E. rewrite secs_S in E. destruct cs as [|c t]; [constructor|]. destruct (existsb (Nat.eqb (at_ c)) held) eqn:EX; [discriminate|].
      destruct (nth_error os (at_ c)); [|discriminate].
      destruct (prog_ n (at_ c :: held) c bs (body c) os) as [[[[r bs'] evs1] os1]| | |] eqn:EP; cbn [hbind] in E; try discriminate.
      destruct (secs_ n held bs' t os1) as [[[rs1 evs2] os2]| | |] eqn:ES; cbn [hbind] in E; try discriminate. constructor; [|eauto].
      intros H. apply Bool.not_true_iff_false in EX. apply EX, existsb_exists. exists (at_ c). split; auto. apply Nat.eqb_refl.
    - intros held cs os evs os' E. rewrite calls_S in E. destruct cs as [|[op bs] t]; [constructor|].
      destruct (secs_ n held bs (parts op) os) as [[[rs evs1] os1]| | |] eqn:ES; cbn [hbind] in E; try discriminate.
      destruct (calls_ n held t os1) as [[evs2 os2]| | |] eqn:EC; cbn [hbind] in E; try discriminate. constructor; [cbn [fst]; eauto|eauto].
  Qed.
  Definition touches (held : list nat) (b : hbeh O) : Prop := match b with HBeh cs => exists q c, In q cs /\ In c (parts (fst q)) /\ In (at_ c) held end.
  Lemma own_prog p : forall n held c b bs os s, nth_error os (at_ c) = Some s -> touches held b -> snd (fst (heval p s)) <> [] ->
    forall x, prog_ n held c (b :: bs) p os <> HEnd x.
  Proof.
    induction p as [r|f IH|x k IH] using hprog_ind2; intros n held c b bs os s Es T L y E; (destruct n as [|n]; [discriminate|]); rewrite prog_S in E; cbn [heval] in L.
    - cbn in L. congruence.
    - rewrite Es in E. specialize (IH s). destruct (f s) as [s1 p1]. cbn [snd] in IH. revert E. apply (IH n held c b bs _ s1); auto. rewrite (nth_set _ _ _ _ s Es), Nat.eqb_refl. reflexivity.
    - destruct b as [cs]. destruct T as (q & d & Hq & Hd & Hh).
      destruct (calls_ n held cs os) as [[evs1 os1]| | |] eqn:EC; cbn [hbind] in E; try discriminate. apply (proj2 (used_apart n)) in EC.
      rewrite Forall_forall in EC. specialize (EC q Hq). rewrite Forall_forall in EC. exact (EC d Hd Hh).
  Qed.
  Lemma own_call n op c t b bs rest os s : parts op = c :: t -> nth_error os (at_ c) = Some s -> snd (fst (heval (body c) s)) <> [] -> touches [at_ c] b ->
    forall x, calls_ n [] ((op, b :: bs) :: rest) os <> HEnd x.
  Proof.
    intros EP Es L T x E. destruct n as [|n]; [discriminate|]. rewrite calls_S in E. destruct n as [|n]; [discriminate|]. rewrite secs_S, EP in E. cbn [existsb] in E. rewrite Es in E.
    destruct (prog_ n [at_ c] c (b :: bs) (body c) os) as [y| | |] eqn:EG; cbn [hbind] in E; try discriminate. exact (own_prog (body c) n _ c b bs os s Es T L y EG).
  Qed.
  Lemma run_apart : forall n,
    (forall held c bs p os, Forall (hb_apart at_ parts held) bs -> prog_ n held c bs p os <> HSelf) /\
    (forall held bs cs os, Forall (fun c => ~ In (at_ c) held /\ Forall (hb_apart at_ parts (at_ c :: held)) bs) cs -> secs_ n held bs cs os <> HSelf) /\
    (forall held cs os, Forall (hc_apart at_ parts held) cs -> calls_ n held cs os <> HSelf).
  Proof.
    induction n as [|n (IP & IS & IC)]; [repeat split; intros; discriminate|]. split; [|split].
    - intros held c bs p os F. rewrite prog_S. destruct p as [r|f|x k]; [discriminate| |].
      + destruct (nth_error os (at_ c)); [|discriminate]. destruct (f s). auto.
      + assert (X : Forall (hc_apart at_ parts held) (match bs with HBeh cs :: _ => cs | [] => [] end)).
        { destruct F as [|b bs' Fb F]; [constructor|]. inversion Fb; subst. assumption. }
        assert (Y : Forall (hb_apart at_ parts held) (tl bs)) by (destruct F; cbn [tl]; auto).
        specialize (IC held _ os X). destruct (calls_ n held (match bs with HBeh cs :: _ => cs | [] => [] end) os) as [[evs os1]| | |]; cbn [hbind]; try congruence.
        specialize (IP held c (tl bs) k os1 Y). destruct (prog_ n held c (tl bs) k os1) as [[[[r bs'] evs'] os2]| | |]; cbn [hbind]; congruence.
    - intros held bs cs os F. rewrite secs_S. destruct F as [|c t [Fh Fb] F]; [discriminate|].
      destruct (existsb (Nat.eqb (at_ c)) held) eqn:EX; [exfalso; apply existsb_exists in EX as (j & Hj & EJ); apply Nat.eqb_eq in EJ; subst; auto|].
      destruct (nth_error os (at_ c)); [|discriminate]. specialize (IP (at_ c :: held) c bs (body c) os Fb).
      destruct (prog_ n (at_ c :: held) c bs (body c) os) as [[[[r bs'] evs] os1]| | |] eqn:EP; cbn [hbind]; try congruence.
      assert (F' : Forall (fun c => ~ In (at_ c) held /\ Forall (hb_apart at_ parts (at_ c :: held)) bs') t).
      { eapply Forall_impl; [|exact F]. cbn. intros d [D1 D2]. split; auto. eapply prog_rest; [exact EP|exact D2]. }
      specialize (IS held bs' t os1 F'). destruct (secs_ n held bs' t os1) as [[[rs evs'] os2]| | |]; cbn [hbind]; congruence.
    - intros held cs os F. rewrite calls_S. destruct F as [|[op bs] t F1 F]; [discriminate|]. unfold hc_apart in F1. cbn [fst snd] in F1.
      specialize (IS held bs (parts op) os F1). destruct (secs_ n held bs (parts op) os) as [[[rs evs] os1]| | |]; cbn [hbind]; try congruence.
      specialize (IC held t os1 F). destruct (calls_ n held t os1) as [[evs' os2]| | |]; cbn [hbind]; congruence.
  Qed.
  (** * Shards that exist *)
  Lemma run_there L : (forall op, Forall (fun c => at_ c < L) (parts op)) -> forall n,
    (forall held c bs p os, length os = L -> at_ c < L -> prog_ n held c bs p os <> HNone /\ forall r bs' evs os', prog_ n held c bs p os = HEnd (r, bs', evs, os') -> length os' = L) /\
    (forall held bs cs os, length os = L -> Forall (fun c => at_ c < L) cs -> secs_ n held bs cs os <> HNone /\ forall rs evs os', secs_ n held bs cs os = HEnd (rs, evs, os') -> length os' = L) /\
    (forall held cs os, length os = L -> calls_ n held cs os <> HNone /\ forall evs os', calls_ n held cs os = HEnd (evs, os') -> length os' = L).
  Proof.
    intros HL. induction n as [|n (IP & IS & IC)]; [repeat split; intros; discriminate|]. split; [|split].
    - intros held c bs p os LO LC. rewrite prog_S. destruct p as [r|f|x k].
      + split; [discriminate|]. intros r' bs' evs os' E. injection E as <- <- <- <-. auto.
      + destruct (nth_error os (at_ c)) eqn:E; [|apply nth_error_None in E; lia]. destruct (f s). apply IP; auto. now rewrite set_nth_length.
      + destruct (IC held (match bs with HBeh cs :: _ => cs | [] => [] end) os LO) as [C1 C2].
        destruct (calls_ n held (match bs with HBeh cs :: _ => cs | [] => [] end) os) as [[evs os1]| | |]; cbn [hbind]; try (split; [congruence|discriminate]).
        specialize (C2 _ _ eq_refl). destruct (IP held c (tl bs) k os1 C2 LC) as [P1 P2].
        destruct (prog_ n held c (tl bs) k os1) as [[[[r bs'] evs'] os2]| | |]; cbn [hbind]; (split; [congruence|]); try discriminate.
        intros r' bs1 evs1 os' E. injection E as <- <- <- <-. eauto.
    - intros held bs cs os LO F. rewrite secs_S. destruct F as [|c t Fc F]; [split; [discriminate|]; intros rs evs os' E; injection E as <- <- <-; auto|].
      destruct (existsb (Nat.eqb (at_ c)) held); [split; discriminate|]. destruct (nth_error os (at_ c)) eqn:E; [|apply nth_error_None in E; lia].
      destruct (IP (at_ c :: held) c bs (body c) os LO Fc) as [P1 P2].
      destruct (prog_ n (at_ c :: held) c bs (body c) os) as [[[[r bs'] evs] os1]| | |]; cbn [hbind]; try (split; [congruence|discriminate]).
      specialize (P2 _ _ _ _ eq_refl). destruct (IS held bs' t os1 P2 F) as [S1 S2].
      destruct (secs_ n held bs' t os1) as [[[rs evs'] os2]| | |]; cbn [hbind]; (split; [congruence|]); try discriminate.
      intros rs' evs1 os' E1. injection E1 as <- <- <-. eauto.
    - intros held cs os LO. rewrite calls_S. destruct cs as [|[op bs] t]; [split; [discriminate|]; intros evs os' E; injection E as <- <-; auto|].
      destruct (IS held bs (parts op) os LO (HL op)) as [S1 S2].
      destruct (secs_ n held bs (parts op) os) as [[[rs evs] os1]| | |]; cbn [hbind]; try (split; [congruence|discriminate]).
      specialize (S2 _ _ _ eq_refl). destruct (IC held t os1 S2) as [C1 C2].
      destruct (calls_ n held t os1) as [[evs' os2]| | |]; cbn [hbind]; (split; [congruence|]); try discriminate.
      intros evs1 os' E1. injection E1 as <- <-. eauto.
  Qed.
  (** * Handlers that only receive *)
  Definition still (b : hbeh O) : Prop := b = HBeh [].
  Lemma still_calls bs : Forall still bs -> (match bs return list (hcall O) with HBeh cs :: _ => cs | [] => [] end) = [].
  Proof. destruct 1 as [|b bs -> _]; reflexivity. Qed.
  Lemma quiet_run : forall n,
    (forall held c bs p os r bs' evs os', Forall still bs -> prog_ n held c bs p os = HEnd (r, bs', evs, os') -> mr_secs evs = [] /\ mr_done evs = []) /\
    (forall held bs cs os rs evs os', Forall still bs -> secs_ n held bs cs os = HEnd (rs, evs, os') ->
       mr_secs evs = combine cs rs /\ mr_done evs = [] /\ (Forall fine rs -> mr_given evs = flat_map outs rs)) /\
    (forall held cs os evs os', Forall hc_quiet cs -> calls_ n held cs os = HEnd (evs, os') ->
       map fst (mr_done evs) = map fst cs /\ mr_secs evs = flat_map (fun d => combine (parts (fst d)) (snd d)) (mr_done evs) /\
       Forall (fun d => length (snd d) = length (parts (fst d))) (mr_done evs) /\
       (Forall (fun d => Forall fine (snd d)) (mr_done evs) -> mr_given evs = flat_map (fun d => flat_map outs (snd d)) (mr_done evs))).
  Proof.
    induction n as [|n (IP & IS & IC)]; [repeat split; intros; discriminate|]. split; [|split].
    - intros held c bs p os r bs' evs os' F E. rewrite prog_S in E. destruct p as [r0|f|x k].
      + injection E as <- <- <- <-. auto.
      + destruct (nth_error os (at_ c)); [|discriminate]. destruct (f s). eauto.
      + rewrite (still_calls bs F) in E. destruct (calls_ n held [] os) as [[evs1 os1]| | |] eqn:EC; cbn [hbind] in E; try discriminate.
        assert (Y : Forall still (tl bs)) by (destruct F; cbn [tl]; auto).
        destruct (prog_ n held c (tl bs) k os1) as [[[[r1 bs1] evs2] os2]| | |] eqn:EP; cbn [hbind] in E; try discriminate. injection E as <- <- <- <-.
        apply IC in EC as (D1 & D2 & _); [|constructor]. apply IP in EP as [P1 P2]; auto. destruct (mr_done evs1) eqn:ED; [|discriminate]. cbn in D2.
        change (mr_secs (evs1 ++ evs2) = [] /\ mr_done (evs1 ++ evs2) = []). rewrite mr_secs_app, mr_done_app, D2, ED, P1, P2. auto.
    - intros held bs cs os rs evs os' F E. assert (E0 := E). rewrite secs_S in E. destruct cs as [|c t]; [injection E as <- <- <-; auto|]. destruct (existsb (Nat.eqb (at_ c)) held) eqn:EX; [discriminate|].
      destruct (nth_error os (at_ c)) as [s|] eqn:Es; [|discriminate].
      destruct (prog_ n (at_ c :: held) c bs (body c) os) as [[[[r bs'] evs1] os1]| | |] eqn:EP; cbn [hbind] in E; try discriminate.
      destruct (secs_ n held bs' t os1) as [[[rs1 evs2] os2]| | |] eqn:ES; cbn [hbind] in E; try discriminate. injection E as <- <- <-.
      assert (F' : Forall still bs') by (eapply prog_rest; eauto). apply IS in ES as (S1 & S2 & S3); auto.
      destruct (proj1 (run_explained n) (at_ c :: held) c _ _ _ _ _ _ _ s (or_introl eq_refl) Es EP) as (l & s' & os3 & H1 & _ & _ & _ & H5 & H6 & H7 & _).
      apply IP in EP as [P1 P2]; auto.
      rewrite !mr_secs_app, !mr_done_app, !mr_given_app, P1, P2. cbn [app]. change (mr_secs (EvSec c r :: evs2)) with ((c, r) :: mr_secs evs2).
      change (mr_done (EvSec c r :: evs2)) with (mr_done evs2). change (mr_given (EvSec c r :: evs2)) with (mr_given evs2). rewrite S1, S2. split; auto. split; auto.
      intros FF. inversion FF as [|? ? F1 F2]; subst. rewrite (S3 F2). cbn [flat_map]. apply (f_equal2 (@app G)); [|reflexivity]. specialize (Hb c s). rewrite H1 in Hb. rewrite <- (Hb F1).
      rewrite P1 in H7. specialize (H7 (Forall_nil _)). clear - H7.
      assert (A : forall e, In e evs1 -> match e with EvGiven d x => at_ d = at_ c | _ => True end).
      { intros [d x|d r|op rs] Hi; auto. destruct (Nat.eq_dec (at_ d) (at_ c)) as [|N]; auto. exfalso. specialize (H7 (at_ d) N).
        assert (X : In x (given_by (at_ d) evs1)) by (apply in_flat_map; exists (EvGiven d x); split; [exact Hi|cbn; rewrite Nat.eqb_refl; now left]). rewrite H7 in X. exact X. }
      clear H7. induction evs1 as [|e evs1 IH]; auto. unfold mr_given, given_by in *. cbn [flat_map]. rewrite (IH (fun x Hx => A x (or_intror Hx))).
      specialize (A e (or_introl eq_refl)). destruct e as [d x|d r|op rs]; auto. rewrite A, Nat.eqb_refl. reflexivity.
    - intros held cs os evs os' F E. rewrite calls_S in E. destruct cs as [|[op bs] t]; [injection E as <- <-; repeat split; constructor|]. inversion F as [|? ? F1 F2]; subst. unfold hc_quiet in F1. cbn [snd] in F1.
      destruct (secs_ n held bs (parts op) os) as [[[rs evs1] os1]| | |] eqn:ES; cbn [hbind] in E; try discriminate.
      destruct (calls_ n held t os1) as [[evs2 os2]| | |] eqn:EC; cbn [hbind] in E; try discriminate. injection E as <- <-.
      assert (LL := proj1 (proj2 (proj1 (proj2 (run_explained n)) _ _ _ _ _ _ _ ES))). apply IS in ES as (S1 & S2 & S3); auto. apply IC in EC as (C1 & C2 & C3 & C4); auto.
      rewrite !mr_secs_app, !mr_done_app, !mr_given_app, S1, S2. cbn [app]. change (mr_secs (EvDone op rs :: evs2)) with (mr_secs evs2).
      change (mr_done (EvDone op rs :: evs2)) with ((op, rs) :: mr_done evs2). change (mr_given (EvDone op rs :: evs2)) with (mr_given evs2).
      cbn [map flat_map fst snd]. rewrite C1, <- C2. split; auto. split; auto. split; [constructor; auto|]. intros FF. inversion FF as [|? ? Q1 Q2]; subst. cbn [snd] in Q1. rewrite (S3 Q1), (C4 Q2). reflexivity.
  Qed.
  (** * All sections *)
  Lemma run_all (P : C -> Prop) : forall n,
    (forall held c bs p os r bs' evs os', Forall (hb_all (fun op => Forall P (parts op))) bs -> prog_ n held c bs p os = HEnd (r, bs', evs, os') -> Forall (fun x => P (fst x)) (mr_secs evs)) /\
    (forall held bs cs os rs evs os', Forall P cs -> Forall (hb_all (fun op => Forall P (parts op))) bs -> secs_ n held bs cs os = HEnd (rs, evs, os') -> Forall (fun x => P (fst x)) (mr_secs evs)) /\
    (forall held cs os evs os', Forall (hc_all (fun op => Forall P (parts op))) cs -> calls_ n held cs os = HEnd (evs, os') -> Forall (fun x => P (fst x)) (mr_secs evs)).
  Proof.
    induction n as [|n (IP & IS & IC)]; [repeat split; intros; discriminate|]. split; [|split].
    - intros held c bs p os r bs' evs os' F E. rewrite prog_S in E. destruct p as [r0|f|x k].
      + injection E as <- <- <- <-. constructor.
      + destruct (nth_error os (at_ c)); [|discriminate]. destruct (f s). eauto.
      + assert (X : Forall (hc_all (fun op => Forall P (parts op))) (match bs with HBeh cs :: _ => cs | [] => [] end)).
        { destruct F as [|b bs0 Fb F]; [constructor|]. inversion Fb; subst. assumption. }
        assert (Y : Forall (hb_all (fun op => Forall P (parts op))) (tl bs)) by (destruct F; cbn [tl]; auto).
        destruct (calls_ n held (match bs with HBeh cs :: _ => cs | [] => [] end) os) as [[evs1 os1]| | |] eqn:EC; cbn [hbind] in E; try discriminate.
        destruct (prog_ n held c (tl bs) k os1) as [[[[r1 bs1] evs2] os2]| | |] eqn:EP; cbn [hbind] in E; try discriminate. injection E as <- <- <- <-.
        change (Forall (fun x => P (fst x)) (mr_secs (evs1 ++ evs2))). rewrite mr_secs_app. apply Forall_app. split; eauto.
    - intros held bs cs os rs evs os' FP F E. rewrite secs_S in E. destruct FP as [|c t Fc FP]; [injection E as <- <- <-; constructor|]. destruct (existsb (Nat.eqb (at_ c)) held); [discriminate|].
      destruct (nth_error os (at_ c)); [|discriminate].
      destruct (prog_ n (at_ c :: held) c bs (body c) os) as [[[[r bs'] evs1] os1]| | |] eqn:EP; cbn [hbind] in E; try discriminate.
      destruct (secs_ n held bs' t os1) as [[[rs1 evs2] os2]| | |] eqn:ES; cbn [hbind] in E; try discriminate. injection E as <- <- <-.
      rewrite mr_secs_app. apply Forall_app. split; [eauto|]. change (Forall (fun x => P (fst x)) ((c, r) :: mr_secs evs2)). constructor; [exact Fc|]. eapply IS; [exact FP| |exact ES]. eapply prog_rest; eauto.
    - intros held cs os evs os' F E. rewrite calls_S in E. destruct F as [|[op bs] t [F1 F2] F]; [injection E as <- <-; constructor|]. cbn [fst snd] in *.
      destruct (secs_ n held bs (parts op) os) as [[[rs evs1] os1]| | |] eqn:ES; cbn [hbind] in E; try discriminate.
      destruct (calls_ n held t os1) as [[evs2 os2]| | |] eqn:EC; cbn [hbind] in E; try discriminate. injection E as <- <-.
      rewrite mr_secs_app. apply Forall_app. split; [eauto|]. change (Forall (fun x => P (fst x)) (mr_secs evs2)). eauto.
  Qed.
  (** * What is seen *)
  Lemma run_made : forall n,
    (forall held c bs p os r bs' evs os', prog_ n held c bs p os = HEnd (r, bs', evs, os') -> forall cs rs evs2, heard parts (c :: cs) rs bs' evs2 -> heard parts (c :: cs) rs bs (evs ++ evs2)) /\
    (forall held bs cs os rs evs os', secs_ n held bs cs os = HEnd (rs, evs, os') -> heard parts cs rs bs evs) /\
    (forall held cs os evs os', calls_ n held cs os = HEnd (evs, os') -> made parts cs evs).
  Proof.
    induction n as [|n (IP & IS & IC)]; [repeat split; intros; discriminate|]. split; [|split].
    - intros held c bs p os r bs' evs os' E cs rs evs2 H. rewrite prog_S in E. destruct p as [r0|f|x k].
      + injection E as <- <- <- <-. exact H.
      + destruct (nth_error os (at_ c)); [|discriminate]. destruct (f s). eauto.
      + destruct (calls_ n held (match bs with HBeh cs :: _ => cs | [] => [] end) os) as [[evs1 os1]| | |] eqn:EC; cbn [hbind] in E; try discriminate.
        destruct (prog_ n held c (tl bs) k os1) as [[[[r1 bs1] evs3] os2]| | |] eqn:EP; cbn [hbind] in E; try discriminate. injection E as <- <- <- <-.
        cbn [app]. rewrite <- app_assoc. apply IC in EC. specialize (IP _ _ _ _ _ _ _ _ _ EP _ _ _ H). destruct bs as [|[l] bs]; cbn [tl] in *.
        * inversion EC; subst. cbn [app]. constructor. exact IP.
        * constructor; auto.
    - intros held bs cs os rs evs os' E. rewrite secs_S in E. destruct cs as [|c t]; [injection E as <- <- <-; constructor|]. destruct (existsb (Nat.eqb (at_ c)) held); [discriminate|].
      destruct (nth_error os (at_ c)); [|discriminate].
      destruct (prog_ n (at_ c :: held) c bs (body c) os) as [[[[r bs'] evs1] os1]| | |] eqn:EP; cbn [hbind] in E; try discriminate.
      destruct (secs_ n held bs' t os1) as [[[rs1 evs2] os2]| | |] eqn:ES; cbn [hbind] in E; try discriminate. injection E as <- <- <-.
      apply (IP _ _ _ _ _ _ _ _ _ EP). constructor. eauto.
    - intros held cs os evs os' E. rewrite calls_S in E. destruct cs as [|[op bs] t]; [injection E as <- <-; constructor|].
      destruct (secs_ n held bs (parts op) os) as [[[rs evs1] os1]| | |] eqn:ES; cbn [hbind] in E; try discriminate.
      destruct (calls_ n held t os1) as [[evs2 os2]| | |] eqn:EC; cbn [hbind] in E; try discriminate. injection E as <- <-. constructor; eauto.
  Qed.
  (** * Records of one kind *)
  Lemma given_at {B} (f : G -> list B) J evs : (forall j, j <> J -> flat_map f (given_by j evs) = []) -> flat_map f (mr_given evs) = flat_map f (given_by J evs).
  Proof.
    intros H.
    assert (A : forall e, In e evs -> match e with EvGiven d x => at_ d = J \/ f x = [] | _ => True end).
    { intros [d x|d r|op rs] Hi; auto. destruct (Nat.eq_dec (at_ d) J) as [|N]; auto. right. specialize (H _ N).
      destruct (f x) as [|y t] eqn:E; auto. exfalso. assert (X : In y (flat_map f (given_by (at_ d) evs))).
      { apply in_flat_map. exists x. split; [|rewrite E; now left]. apply in_flat_map. exists (EvGiven d x). split; auto. cbn. rewrite Nat.eqb_refl. now left. }
      rewrite H in X. exact X. }
    clear H. induction evs as [|e evs IH]; auto. unfold mr_given, given_by in *. cbn [flat_map]. rewrite !flat_map_app, (IH (fun x Hx => A x (or_intror Hx))).
    specialize (A e (or_introl eq_refl)). destruct e as [d x|d r|op rs]; auto. destruct A as [-> | A]; [rewrite Nat.eqb_refl; auto|]. destruct (at_ d =? J); cbn [flat_map app]; rewrite ?A; auto.
  Qed.
  Lemma in_turn_det os l1 os1 : in_turn at_ alone os l1 os1 -> forall l2 os2, in_turn at_ alone os l2 os2 -> map fst l1 = map fst l2 -> l1 = l2 /\ os1 = os2.
  Proof.
    induction 1 as [os|os c r s s' t os1 E A T IH]; intros l2 os2 H M; inversion H as [|? c2 r2 s2 s2' t2 ? E2 A2 T2]; subst; cbn [map fst] in M; try discriminate; auto.
    injection M as <- M. rewrite E in E2. injection E2 as <-. rewrite A in A2. injection A2 as <- <-. destruct (IH _ _ T2 M) as [-> ->]. auto.
  Qed.
End Machine.

Lemma hb_all_impl {O} (P Q : O -> Prop) : (forall op, P op -> Q op) -> forall b, hb_all P b -> hb_all Q b.
Proof.
  intros I b. induction b as [cs IH] using hbeh_ind2. intros H. inversion H as [? F]; subst. constructor.
  induction F as [|[op bs] cs [F1 F2] F IHF]; constructor; inversion IH as [|? ? J1 J2]; subst; [|apply IHF; auto; now constructor].
  cbn [fst snd] in *. split; auto. clear - F2 J1. induction F2; inversion J1; subst; constructor; auto.
Qed.
Lemma hc_all_impl {O} (P Q : O -> Prop) : (forall op, P op -> Q op) -> forall q, hc_all P q -> hc_all Q q.
Proof. intros I q [A B]. split; auto. eapply Forall_impl; [|exact B]. apply hb_all_impl. auto. Qed.

(** * The sections of a multi_aggregator *)
Section Bodies.
  Variable ne : nat -> list Z -> list Z.
  Variable o : maopts.
  Lemma pop_body_ok force h ks : forall acc m,
    let '(r, l, s') := heval (pop_body ne force h ks acc) (Ok m) in
    match bm_loop ne force h ks m with
    | Ok (l2, m2) => r = Ok (MRecs (acc ++ l2)) /\ l = l2 /\ s' = Ok m2
    | Ub => r = Ub /\ s' = Ub
    | Exn => r = Exn /\ s' = Exn
    end.
  Proof.
    induction ks as [|n t IH]; intros acc m; cbn [pop_body bm_loop].
    - cbn [heval]. rewrite app_nil_r. auto.
    - unfold on_shard. cbn [heval]. destruct (bm_find n m) as [g|]; [|exact (IH acc m)].
      destruct (if force then g_force_pop ne g else Ok (g_pop g)) as [[[x|] g1]| |]; cbn [bind]; [| | cbn [heval]; auto | cbn [heval]; auto].
      + destruct h; cbn [bind]; [|cbn [heval]; auto]. cbn [heval]. specialize (IH (acc ++ [(n, x)]) (bm_set n g1 m)).
        destruct (heval (pop_body ne force true t (acc ++ [(n, x)])) (Ok (bm_set n g1 m))) as [[r l] s'].
        destruct (bm_loop ne force true t (bm_set n g1 m)) as [[l2 m2]| |]; cbn [bind]; auto. destruct IH as (-> & -> & ->). rewrite <- app_assoc. auto.
      + assert (X : (l <- match None : option adata with Some x => match h with true => Ok [(n, x)] | false => Exn end | None => Ok [] end ;;
          ' (l2, m2) <- bm_loop ne force h t (bm_set n g1 m) ;; Ok (l ++ l2, m2)) = (' (l2, m2) <- bm_loop ne force h t (bm_set n g1 m) ;; Ok (l2, m2))) by reflexivity.
        specialize (IH acc (bm_set n g1 m)).
        destruct (heval (pop_body ne force h t acc) (Ok (bm_set n g1 m))) as [[r l] s'].
        destruct (bm_loop ne force h t (bm_set n g1 m)) as [[l2 m2]| |]; destruct h; cbn [bind app]; auto.
  Qed.
  Lemma give_all_ok l r (s : outcome bmulti) : heval (give_all l (HRet r)) s = (r, l, s).
  Proof. induction l as [|x l IH]; cbn [give_all heval]; [reflexivity|]. now rewrite IH. Qed.
  Lemma sec_body_ok : sections_of ne o (sec_body ne o).
  Proof.
    intros c s. destruct c as [e n d h|n|f h ord i|i]; cbn [sec_body]; unfold on_shard; cbn [heval]; (destruct s as [m| |]; cbn [sec_run sec_do]; [|split; [reflexivity|discriminate]|split; [reflexivity|discriminate]]).
    - destruct (bm_push ne (ma_agg o) e n d h m) as [[[r l] m1]| |]; cbn [bind fst snd heval]; [|split; [reflexivity|discriminate]|split; [reflexivity|discriminate]].
      rewrite give_all_ok. split; auto. intros x E. injection E as <-. reflexivity.
    - destruct (bm_del n m) as [r m1]. cbn [heval]. split; auto. intros x E. injection E as <-. reflexivity.
    - unfold bm_pushout. pose proof (pop_body_ok f h (ord (map fst m)) [] m) as H. destruct (heval (pop_body ne f h (ord (map fst m)) []) (Ok m)) as [[r l] s'].
      destruct (bm_loop ne f h (ord (map fst m)) m) as [[l2 m2]| |]; cbn [bind].
      + destruct H as (-> & -> & ->). split; auto. intros x E. injection E as <-. reflexivity.
      + destruct H as (-> & ->). split; auto. discriminate.
      + destruct H as (-> & ->). split; auto. discriminate.
    - cbn [heval fst snd]. split; auto. intros x E. injection E as <-. reflexivity.
  Qed.
End Bodies.
