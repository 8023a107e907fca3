(** Executions of the shared registry: every step is one of these, invariants, and the order of effects. *)
From Coq Require Import ZArith List Bool Lia Arith Ascii.
From Verif Require Import Base ModelTypes ModelReducer SpecReducer ModelSeparator SpecSeparator ModelAggregator SpecAggregator
  ModelRegistry SpecRegistry RegProofs RegFinal AggFinal ModelConc SpecConc.
Import ListNotations.
Local Open Scope Z_scope.

Ltac ks := cbn [with_pc with_reg k_reg k_dead k_thr].
Ltac inv_ok H := first [injection H as <- <-|discriminate H].
Ltac bind_in H x := match type of H with bind ?e _ = Ok _ => let E := fresh "E" x in destruct e as [x| |] eqn:E; cbn [bind] in H; [|discriminate H|discriminate H] end.

Lemma set_nth_id {A} i (x : A) l : nth_error l i = Some x -> set_nth i x l = l.
Proof. revert i. induction l as [|a l IH]; intros [|i] H; simpl in *; try discriminate; [now injection H as ->|]. f_equal. auto. Qed.
Lemma rg_set_id pos ob r : nth_error (rg_arr r) pos = Some (Some ob) -> rg_set pos (Some ob) r = r.
Proof. intros H. unfold rg_set. rewrite set_nth_id by auto. now destruct r. Qed.

(** What a push made with the token in hand does. *)
Definition push_act (c : conc) (p : rpusher) (x : sample) (c1 c2 : Z) : aop :=
  if cleared (rp_obj p) c then AHeld p x c1 c2 else ADo (RgPush p x c1 c2).

Section Conc.
  Variable ne : nat -> list Z -> list Z.

  (** The steps of an execution: thread [t] goes from one [pc] to another. *)
  Inductive Kstep (t : nat) (c : conc) (k : kop) : pc -> list event -> registry -> list obj -> pc -> Prop :=
  | KsStay p : Kstep t c k p [] (k_reg c) (k_dead c) p
  | KsOne op o r' : k = KOp op -> single op ->
      match op with
      | RgCreate _ _ _ | RgSetInit _ => can_write c = true
      | RgCall id _ => rg_get id (k_reg c) = Ok None
      | RgGetName _ | RgPusher _ _ => True
      | _ => False
      end -> rg_do ne op (k_reg c) = Ok (o, r') ->
      Kstep t c k PIdle [EInv t k; ELin t (ADo op) o; ERet t o] r' (k_dead c) PIdle
  | KsDel n p o r' : k = KOp (RgDel n) -> can_write c = true ->
      rg_get (d_get_id n (rg_dict (k_reg c))) (k_reg c) = Ok p -> rg_do ne (RgDel n) (k_reg c) = Ok (o, r') ->
      Kstep t c k PIdle [EInv t k; ELin t (ADo (RgDel n)) o; ERet t o] r'
        (match p with Some (_, ob) => ob :: k_dead c | None => k_dead c end) PIdle
  | KsGet id g pos s g0 : k = KOp (RgCall id g) -> rg_get id (k_reg c) = Ok (Some (pos, (s, g0))) ->
      Kstep t c k PIdle [EInv t k] (k_reg c) (k_dead c) (PGot id s g)
  | KsAdd e n d c1 c2 id r' : k = KOp (RgAddName e n d c1 c2) -> can_write c = true ->
      rg_create ne e n (ri_ts (rd_info d)) (k_reg c) = Ok (id, r') ->
      Kstep t c k PIdle [EInv t k; ELin t (ADo (RgCreate e n (ri_ts (rd_info d)))) (RId id)] r' (k_dead c) (PCreated id d c1 c2)
  | KsMake e n h now id r' : k = KOp (RgPusherName e n h now) -> can_write c = true ->
      rg_create ne e n now (k_reg c) = Ok (id, r') ->
      Kstep t c k PIdle [EInv t k; ELin t (ADo (RgCreate e n now)) (RId id)] r' (k_dead c) (PMade id h)
  | KsNothing p x c1 c2 dest : k = match dest with None => KOp (RgPush p x c1 c2) | Some id => KMeter p id x c1 c2 end ->
      rg_do ne (RgPush p x c1 c2) (k_reg c) = Ok (RRecs [], k_reg c) ->
      Kstep t c k PIdle [EInv t k; ELin t (ADo (RgPush p x c1 c2)) (RRecs []); ERet t (match dest with None => RRecs [] | _ => RNamed [] end)]
        (k_reg c) (k_dead c) PIdle
  | KsLock p x c1 c2 dest g : k = match dest with None => KOp (RgPush p x c1 c2) | Some id => KMeter p id x c1 c2 end ->
      exists_obj c (rp_obj p) g -> pu_id (rp_pu p) = true -> token (rp_obj p) g c = true ->
      (exists pos, nth_error (rg_arr (k_reg c)) pos = Some (Some (rp_obj p, g))) \/ existsb (holds (rp_obj p)) (k_thr c) = true ->
      Kstep t c k PIdle [EInv t k] (k_reg c) (k_dead c) (PLocked p x c1 c2 dest)
  | KsPopStart f clk : k = KOp (RgPopAll f clk) -> can_read c = true ->
      Kstep t c k PIdle [EInv t k] (k_reg c) (k_dead c) (PPop f clk (seq 0 (length (rg_arr (k_reg c)))) [])
  | KsEnStart v : k = KOp (RgEnable v) -> can_write c = true ->
      Kstep t c k PIdle [EInv t k; ELin t (AFlag v) RUnit] (set_flag v (k_reg c)) (k_dead c) (PEnable v (seq 0 (length (rg_arr (k_reg c)))))
  | KsCall id s g o reg c' : k_call ne s g c = Ok (o, reg, c') -> can_call s c = true ->
      Kstep t c k (PGot id s g) (lin reg t s g o (ADo (RgCall id g)) (RCall o)) (k_reg c') (k_dead c') (PLeave false s (RCall o))
  | KsLeave b s o : Kstep t c k (PLeave b s o) [ERet t o] (k_reg c) (k_dead c) PIdle
  | KsGet2 id d c1 c2 pos s g0 : rg_get id (k_reg c) = Ok (Some (pos, (s, g0))) ->
      Kstep t c k (PCreated id d c1 c2) [] (k_reg c) (k_dead c) (PGot id s (GoAdd (SmRed d) c1 c2))
  | KsNone2 id d c1 c2 : rg_get id (k_reg c) = Ok None -> let g := GoAdd (SmRed d) c1 c2 in
      Kstep t c k (PCreated id d c1 c2) [ELin t (ADo (RgCall id g)) (RCall (no_out g)); ERet t (RCall (no_out g))] (k_reg c) (k_dead c) PIdle
  | KsMade id h p : rg_pusher id h (k_reg c) = Ok p ->
      Kstep t c k (PMade id h) [ELin t (ADo (RgPusher id h)) (RPusher p); ERet t (RPusher p)] (k_reg c) (k_dead c) PIdle
  | KsPush p x c1 c2 o reg c' : let g := GoPush x (pu_handler (rp_pu p)) c1 c2 in k_call ne (rp_obj p) g c = Ok (o, reg, c') -> can_call (rp_obj p) c = true ->
      Kstep t c k (PLocked p x c1 c2 None)
        (lin reg t (rp_obj p) g o (push_act c p x c1 c2) (RRecs (out_handler o))) (k_reg c') (k_dead c') (PLeave true (rp_obj p) (RRecs (out_handler o)))
  | KsPushNil p x c1 c2 id o reg c' : let g := GoPush x (pu_handler (rp_pu p)) c1 c2 in k_call ne (rp_obj p) g c = Ok (o, reg, c') -> out_handler o = [] -> can_call (rp_obj p) c = true ->
      Kstep t c k (PLocked p x c1 c2 (Some id))
        (lin reg t (rp_obj p) g o (push_act c p x c1 c2) (RRecs [])) (k_reg c') (k_dead c') (PLeave true (rp_obj p) (RNamed []))
  | KsPushSome p x c1 c2 id o reg c' : let g := GoPush x (pu_handler (rp_pu p)) c1 c2 in k_call ne (rp_obj p) g c = Ok (o, reg, c') -> can_call (rp_obj p) c = true ->
      Kstep t c k (PLocked p x c1 c2 (Some id))
        (lin reg t (rp_obj p) g o (push_act c p x c1 c2) (RRecs (out_handler o))) (k_reg c') (k_dead c') (PDeliver (rp_obj p) id (out_handler o))
  | KsDeliver s id recs :
      Kstep t c k (PDeliver s id recs)
        [ELin t (ADo (RgGetName id)) (RName (rg_get_name id (k_reg c))); EGiven t (w_deliver id recs (k_reg c))] (k_reg c) (k_dead c)
        (PLeave true s (RNamed (w_deliver id recs (k_reg c))))
  | KsPopEnd f (clk : name -> Z) (acc : list (name * adata)) : Kstep t c k (PPop f clk [] acc) [ERet t (RNamed acc)] (k_reg c) (k_dead c) PIdle
  | KsPopSkip f (clk : name -> Z) i is (acc : list (name * adata)) id : d_pos2id i (rg_dict (k_reg c)) = Ok id -> rg_get id (k_reg c) = Ok None ->
      Kstep t c k (PPop f clk (i :: is) acc) [] (k_reg c) (k_dead c) (PPop f clk is acc)
  | KsPopSep f clk i is acc id pos s g0 o reg c' : let g := GoSeparate 0 false f (clk (rg_get_name id (k_reg c))) in
      rg_get id (k_reg c) = Ok (Some (pos, (s, g0))) -> k_call ne s g c = Ok (o, reg, c') -> d_pos2id i (rg_dict (k_reg c)) = Ok id -> can_call s c = true ->
      Kstep t c k (PPop f clk (i :: is) acc) (lin reg t s g o (ADo (RgCall id g)) (RCall o)) (k_reg c') (k_dead c') (PPopped f clk is acc id s)
  | KsPopPop (f : bool) clk is acc id s o reg c' : let g := if f then GoForcePop else GoPop in
      k_call ne s g c = Ok (o, reg, c') -> can_call s c = true ->
      Kstep t c k (PPopped f clk is acc id s)
        (lin reg t s g o (ADo (RgCall id g)) (RCall o) ++
         match out_ptr o with Some _ => [ELin t (ADo (RgGetName id)) (RName (rg_get_name id (k_reg c)))] | None => [] end)
        (k_reg c') (k_dead c')
        (PPop f clk is (acc ++ match out_ptr o with Some a => [(rg_get_name id (k_reg c), a)] | None => [] end))
  | KsEnEnd (v : bool) : Kstep t c k (PEnable v []) [ERet t RUnit] (k_reg c) (k_dead c) PIdle
  | KsEnSkip (v : bool) i is : (forall s g, nth_error (rg_arr (k_reg c)) i <> Some (Some (s, g))) ->
      Kstep t c k (PEnable v (i :: is)) [] (k_reg c) (k_dead c) (PEnable v is)
  | KsEnOne v i is s g0 o reg c' : nth_error (rg_arr (k_reg c)) i = Some (Some (s, g0)) ->
      k_call ne s (GoEnable v) c = Ok (o, reg, c') -> can_call s c = true ->
      Kstep t c k (PEnable v (i :: is)) (lin reg t s (GoEnable v) o (AEnableOne s v) RUnit) (k_reg c') (k_dead c') (PEnable v is).

  Lemma call_thr s g c o reg c' : k_call ne s g c = Ok (o, reg, c') -> k_thr c' = k_thr c.
  Proof.
    unfold k_call. intros E. destruct (find_obj s _) as [[pos g0]|].
    - bind_in E og. destruct og as [o1 g1]. cbn [bind] in E. injection E as <- <- <-. auto.
    - destruct (m_find Nat.eqb s _) as [g0|]; try discriminate. bind_in E og. destruct og as [o1 g1]. injection E as <- <- <-. auto.
  Qed.

  Lemma get_in id r pos s g : rg_get id r = Ok (Some (pos, (s, g))) -> nth_error (rg_arr r) pos = Some (Some (s, g)).
  Proof. apply get_some. Qed.

  Lemma with_pc_eq t p c : nth_error (k_thr c) t = Some p -> with_pc t p c = c.
  Proof. intros H. unfold with_pc. rewrite set_nth_id by auto. now destruct c. Qed.

  Lemma not_live pu s g c : pu_id pu && token s g c = false -> pusher_live pu g = false.
  Proof. unfold pusher_live, token. destruct (pu_id pu), (g_id g); simpl; auto; discriminate. Qed.

  (** [k_step] follows [Kstep]. *)
  Lemma step_Kstep t k c ev c' : k_step ne t k c = Ok (ev, c') ->
    (nth_error (k_thr c) t = None /\ ev = [] /\ c' = c) \/
    exists p p', nth_error (k_thr c) t = Some p /\ Kstep t c k p ev (k_reg c') (k_dead c') p' /\ k_thr c' = set_nth t p' (k_thr c).
  Proof.
    unfold k_step. destruct (nth_error (k_thr c) t) as [p|] eqn:ET; [|unfold stay; intros E; injection E as <- <-; auto].
    intros E. right.
    assert (ST : forall q, k_thr (with_pc t q c) = set_nth t q (k_thr c)) by reflexivity.
    assert (SELF : set_nth t p (k_thr c) = k_thr c) by (apply set_nth_id; auto).
    assert (STAY : forall ev c', stay c = Ok (ev, c') ->
      exists p0 p', Some p = Some p0 /\ Kstep t c k p0 ev (k_reg c') (k_dead c') p' /\ k_thr c' = set_nth t p' (k_thr c)).
    { unfold stay. intros ? ? H. injection H as <- <-. exists p, p. rewrite SELF. auto using KsStay. }
    destruct p.
    - (* start *)
      destruct k as [op|p id x c1 c2]; cbn [k_start] in E.
      + assert (ONE : single op -> match op with
            | RgCreate _ _ _ | RgSetInit _ => can_write c = true
            | RgCall id _ => rg_get id (k_reg c) = Ok None
            | RgGetName _ | RgPusher _ _ => True
            | _ => False end -> k_one ne t (KOp op) op c = Ok (ev, c') ->
            exists p0 p', Some PIdle = Some p0 /\ Kstep t c (KOp op) p0 ev (k_reg c') (k_dead c') p' /\ k_thr c' = set_nth t p' (k_thr c)).
        { intros S1 S2 H. unfold k_one in H. bind_in H orr. destruct orr as [o r]. cbn [bind] in H. injection H as <- <-.
          exists PIdle, PIdle. cbn [with_reg k_reg k_dead k_thr]. rewrite SELF. split; auto. split; auto. ks; eapply KsOne; eauto. }
        destruct op; unfold guard in E.
        * destruct (can_write c) eqn:G; eauto. apply ONE; auto. exact I.
        * destruct (can_read c) eqn:G; eauto. bind_in E p. destruct p as [[pos [s g0]]|]; [|apply ONE; auto; exact I].
          injection E as <- <-. exists PIdle, (PGot id s op). split; auto. split; auto. ks; eapply KsGet; eauto.
        * destruct (can_write c) eqn:G; eauto. bind_in E idr. destruct idr as [id r]. injection E as <- <-.
          exists PIdle, (PCreated id d c1 c2). split; auto. split; auto. ks; eapply KsAdd; eauto.
        * destruct (can_read c) eqn:G; eauto. injection E as <- <-. eexists PIdle, _. split; auto. split; [|apply ST]. ks; eapply KsPopStart; eauto.
        * destruct (can_write c) eqn:G; eauto. injection E as <- <-. eexists PIdle, (PEnable v _). split; auto. split; [|reflexivity]. ks; eapply KsEnStart; eauto.
        * destruct (can_write c) eqn:G; eauto. apply ONE; auto. exact I.
        * destruct (can_write c) eqn:G; eauto. bind_in E p. bind_in E y. destruct y as [ev1 k1]. unfold k_one in Ey. bind_in Ey orr. destruct orr as [o r].
          cbn [bind] in Ey. injection Ey as <- <-. injection E as <- <-.
          exists PIdle, PIdle. cbn [with_reg k_reg k_dead k_thr]. rewrite SELF. split; auto. split; auto. ks; eapply KsDel; eauto.
        * destruct (can_read c) eqn:G; eauto. apply ONE; auto; exact I.
        * destruct (can_read c) eqn:G; eauto. apply ONE; auto; exact I.
        * destruct (can_write c) eqn:G; eauto. bind_in E idr. destruct idr as [id r]. injection E as <- <-.
          exists PIdle, (PMade id h). split; auto. split; auto. ks; eapply KsMake; eauto.
        * unfold k_lock in E. pose proof (fun H => KsNothing t c (KOp (RgPush p x c1 c2)) p x c1 c2 None eq_refl H) as NO.
          unfold k_find in E. simpl rg_do in NO. unfold rg_call_pusher in NO.
          destruct (find_obj (rp_obj p) (rg_arr (k_reg c))) as [[pos g]|] eqn:EF.
          -- destruct (pu_id (rp_pu p) && token (rp_obj p) g c) eqn:EL.
             ++ injection E as <- <-. exists PIdle, (PLocked p x c1 c2 None). split; auto. split; auto. apply andb_true_iff in EL as (EL1 & EL2). ks; eapply KsLock; eauto;
                left; exists pos; eapply find_obj_some; eauto.
             ++ injection E as <- <-. exists PIdle, PIdle. rewrite SELF. split; auto. split; auto. apply NO.
                unfold g_call_pusher. rewrite (not_live _ _ _ _ EL). cbn [bind]. rewrite rg_set_id; auto. eapply find_obj_some; eauto.
          -- destruct (existsb (holds (rp_obj p)) (k_thr c)) eqn:EH.
             ++ destruct (m_find Nat.eqb (rp_obj p) (k_dead c)) as [g|] eqn:EM.
                ** destruct (pu_id (rp_pu p) && token (rp_obj p) g c) eqn:EL.
                   --- injection E as <- <-. exists PIdle, (PLocked p x c1 c2 None). split; auto. split; auto. apply andb_true_iff in EL as (EL1 & EL2). ks; eapply KsLock; eauto. right. auto.
                   --- injection E as <- <-. exists PIdle, PIdle. rewrite SELF. split; auto.
                ** injection E as <- <-. exists PIdle, PIdle. rewrite SELF. split; auto.
             ++ injection E as <- <-. exists PIdle, PIdle. rewrite SELF. split; auto.
      + unfold k_lock in E. pose proof (fun H => KsNothing t c (KMeter p id x c1 c2) p x c1 c2 (Some id) eq_refl H) as NO.
        unfold k_find in E. simpl rg_do in NO. unfold rg_call_pusher in NO.
        destruct (find_obj (rp_obj p) (rg_arr (k_reg c))) as [[pos g]|] eqn:EF.
        -- destruct (pu_id (rp_pu p) && token (rp_obj p) g c) eqn:EL.
           ++ injection E as <- <-. exists PIdle, (PLocked p x c1 c2 (Some id)). split; auto. split; auto. apply andb_true_iff in EL as (EL1 & EL2). ks; eapply KsLock; eauto;
              left; exists pos; eapply find_obj_some; eauto.
           ++ injection E as <- <-. exists PIdle, PIdle. rewrite SELF. split; auto. split; auto. apply NO.
              unfold g_call_pusher. rewrite (not_live _ _ _ _ EL). cbn [bind]. rewrite rg_set_id; auto. eapply find_obj_some; eauto.
        -- destruct (existsb (holds (rp_obj p)) (k_thr c)) eqn:EH.
           ++ destruct (m_find Nat.eqb (rp_obj p) (k_dead c)) as [g|] eqn:EM.
              ** destruct (pu_id (rp_pu p) && token (rp_obj p) g c) eqn:EL.
                 --- injection E as <- <-. exists PIdle, (PLocked p x c1 c2 (Some id)). split; auto. split; auto. apply andb_true_iff in EL as (EL1 & EL2). ks; eapply KsLock; eauto. right. auto.
                 --- injection E as <- <-. exists PIdle, PIdle. rewrite SELF. split; auto.
              ** injection E as <- <-. exists PIdle, PIdle. rewrite SELF. split; auto.
           ++ injection E as <- <-. exists PIdle, PIdle. rewrite SELF. split; auto.
    - cbn [k_next] in E. unfold guard in E. destruct (can_call s c) eqn:CC; eauto. bind_in E x. destruct x as [[o reg] c1]. injection E as <- <-.
      pose proof (call_thr _ _ _ _ _ _ Ex) as T. eexists _, (PLeave _ _ _). split; eauto. split; [|simpl; now rewrite T]. simpl. ks; eapply KsCall; eauto.
    - cbn [k_next] in E. unfold guard in E. destruct (can_read c); eauto. bind_in E x. cbv zeta in E. destruct x as [[pos [s g0]]|]; injection E as <- <-.
      + eexists _, (PGot _ _ _). split; eauto. split; [|reflexivity]. ks; eapply KsGet2; eauto.
      + eexists _, PIdle. split; eauto. split; [|reflexivity]. ks; eapply KsNone2; eauto.
    - cbn [k_next] in E. unfold guard in E. destruct (can_read c); eauto. bind_in E x. injection E as <- <-.
      eexists _, PIdle. split; eauto. split; [|reflexivity]. ks; eapply KsMade; eauto.
    - cbn [k_next] in E. unfold guard in E. destruct (can_call (rp_obj p) c) eqn:CC; eauto. bind_in E y. destruct y as [[o reg] k1].
      pose proof (call_thr _ _ _ _ _ _ Ey) as T. cbv zeta in E. destruct dest as [id|].
      + destruct (out_handler o) as [|a l] eqn:EH; injection E as <- <-.
        * eexists _, (PLeave _ _ _). split; eauto. split; [|simpl; now rewrite T]. ks; eapply KsPushNil; eauto.
        * eexists _, (PDeliver _ _ _). split; eauto. split; [|simpl; now rewrite T]. rewrite <- EH. ks; eapply KsPushSome; eauto.
      + injection E as <- <-. eexists _, (PLeave _ _ _). split; eauto. split; [|simpl; now rewrite T]. ks; eapply KsPush; eauto.
    - cbn [k_next] in E. unfold guard in E. destruct (can_read c); eauto. injection E as <- <-.
      eexists _, (PLeave _ _ _). split; eauto. split; [|reflexivity]. ks; eapply KsDeliver.
    - cbn [k_next] in E. injection E as <- <-. eexists _, PIdle. split; eauto. split; [|reflexivity]. ks; eapply KsLeave.
    - cbn [k_next] in E. destruct is as [|i is].
      + injection E as <- <-. eexists _, PIdle. split; eauto. split; [|reflexivity]. ks; eapply KsPopEnd.
      + bind_in E pid. bind_in E x. destruct x as [[pos [s g0]]|].
        * cbv zeta in E. unfold guard in E. destruct (can_call s c) eqn:CC; eauto. bind_in E y. destruct y as [[o reg] k1].
          pose proof (call_thr _ _ _ _ _ _ Ey) as T. injection E as <- <-.
          eexists _, (PPopped _ _ _ _ _ _). split; eauto. split; [|simpl; now rewrite T]. ks; eapply KsPopSep; eauto.
        * injection E as <- <-. eexists _, (PPop _ _ _ _). split; eauto. split; [|reflexivity]. ks; eapply KsPopSkip; eauto.
    - cbn [k_next] in E. unfold guard in E. cbv zeta in E. destruct (can_call s c) eqn:CC; eauto. bind_in E y. destruct y as [[o reg] k1].
      pose proof (call_thr _ _ _ _ _ _ Ey) as T. pose proof (KsPopPop t c k force clk is acc id s o reg k1 Ey CC) as S. cbv zeta in S.
      destruct (out_ptr o); injection E as <- <-; (eexists _, (PPop _ _ _ _); split; [eauto|]; split; [ks; exact S|simpl; now rewrite T]).
    - cbn [k_next] in E. destruct is as [|i is].
      + injection E as <- <-. eexists _, PIdle. split; eauto. split; [|reflexivity]. ks; eapply KsEnEnd.
      + destruct (nth_error (rg_arr (k_reg c)) i) as [[[s g0]|]|] eqn:EI.
        * cbv zeta in E. unfold guard in E. destruct (can_call s c) eqn:CC; eauto. bind_in E y. destruct y as [[o reg] k1].
          pose proof (call_thr _ _ _ _ _ _ Ey) as T. injection E as <- <-.
          eexists _, (PEnable _ _). split; eauto. split; [|simpl; now rewrite T]. ks; eapply KsEnOne; eauto.
        * injection E as <- <-. eexists _, (PEnable _ _). split; eauto. split; [|reflexivity]. ks; eapply KsEnSkip; rewrite EI; discriminate.
        * injection E as <- <-. eexists _, (PEnable _ _). split; eauto. split; [|reflexivity]. ks; eapply KsEnSkip; rewrite EI; discriminate.
  Qed.
End Conc.
