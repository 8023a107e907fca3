(** Proofs about handlers that throw: whole programs. *)
From Coq Require Import ZArith List Bool Arith Lia Ascii Permutation.
From Verif Require Import Base ModelAvg ModelTypes ModelReducer SpecReducer ModelSeparator SpecSeparator ModelAggregator SpecAggregator
  ModelRegistry SpecRegistry ModelComposite ModelMeters ModelSystem ModelThrow SpecThrow SpecThrowSys AggRun ThrowProofs.
Import ListNotations.
Local Open Scope Z_scope.

Section S.
  Variable ne : nat -> list Z -> list Z.

  (** * What the handler is given *)
  Lemma loop_t_ret th f : forall step ts next r recs r2 n2, sep_loop_t ne th f step ts next r = Ok (recs, false, r2, n2) ->
    forall d, In d recs -> th d = false.
  Proof.
    induction f as [|f IH]; intros step ts next r recs r2 n2 E; cbn [sep_loop_t] in E; destruct (next <=? ts); try discriminate.
    - injection E as <- _ _. intros d [].
    - destruct (r_detach ne r) as [[a r1]| |]; cbn [bind] in E; try discriminate. destruct a as [x|]; cbn [bind] in E.
      + destruct (chk (next - step)) as [t| |]; cbn [bind] in E; try discriminate. cbv zeta in E. destruct (th (ad_set_ts t x)) eqn:Et; [discriminate|].
        destruct (chk (next + step)) as [n1| |]; cbn [bind] in E; try discriminate.
        destruct (sep_loop_t ne th f step ts n1 r1) as [[[[rc b] r3] n3]| |] eqn:EL; cbn [bind] in E; try discriminate.
        injection E as <- -> <- <-. intros d [<-|I]; [exact Et|]. eapply IH; eauto.
      + destruct (chk (next + step)) as [n1| |]; cbn [bind] in E; try discriminate. eapply IH; eauto.
    - injection E as <- _ _. intros d [].
  Qed.
  Lemma finish_out out th : forall l ds, g_finish_all ne out l = Ok ds -> (forall a, In a l -> push_handler_t ne out th a = false) ->
    forall d, In d ds -> th d = false.
  Proof.
    induction l as [|a l IH]; intros ds E Q d I; cbn [g_finish_all] in E.
    - injection E as <-. destruct I.
    - destruct (g_finish ne out a) as [d0| |] eqn:Ed; cbn [bind] in E; try discriminate.
      destruct (g_finish_all ne out l) as [ds1| |] eqn:Es; cbn [bind] in E; try discriminate. injection E as <-.
      destruct I as [<-|I].
      + specialize (Q a (or_introl eq_refl)). unfold push_handler_t in Q. now rewrite Ed in Q.
      + eapply IH; eauto. intros b Ib. apply Q. now right.
  Qed.
  Lemma push_ret x th c1 c2 g o g' : tg_push ne x th c1 c2 g = Ok (TRet o, g') -> forall d, In d (out_handler o) -> th d = false.
  Proof.
    intros E. assert (X : not_list x) by (destruct x; cbn in E; try discriminate; exact Logic.I).
    rewrite tg_push_eq in E by exact X. unfold g_push_t in E.
    destruct (g_enabled g); cbn [negb] in E; [|injection E as <- _; intros d []].
    destruct (s_put_t _ _ _ _ _ _ _) as [[[b rs] s]| |] eqn:Ep; cbn [bind] in E; try discriminate.
    destruct (g_finish_all ne (g_out g) rs) as [ds| |] eqn:Ef; cbn [bind] in E; try discriminate.
    destruct b as [b|]; [|discriminate]. injection E as <- _. cbn [out_handler].
    eapply finish_out; eauto. clear - Ep. unfold s_put_t in Ep. destruct (get_ts _ _ _ _) as [t0| |]; cbn [bind] in Ep; try discriminate.
    destruct (s_separate_t ne c2 t0 _ false (g_sep g)) as [[[b1 rc] s2]| |] eqn:Es; cbn [bind] in Ep; try discriminate.
    destruct b1 as [b1|]; [|discriminate].
    assert (rc = rs) as -> by (destruct (chk _); cbn [bind] in Ep; try discriminate; destruct (_ <? _); now injection Ep).
    unfold s_separate_t in Es. destruct (get_ts _ _ _ _) as [t1| |]; cbn [bind] in Es; try discriminate.
    destruct (negb false && _); [injection Es as _ <- _; intros ? []|].
    destruct (sep_loop_t _ _ _ _ _ _ _) as [[[[rr bb] r2] n2]| |] eqn:EL; cbn [bind] in Es; try discriminate.
    destruct bb; [discriminate|]. injection Es as _ <- _. eapply loop_t_ret; eauto.
  Qed.
  Lemma push_threw_one x th c1 c2 g recs g' : tg_push ne x th c1 c2 g = Ok (TThrew recs, g') -> exists d, recs = [d] /\ th d = true.
  Proof.
    intros E. assert (X : not_list x) by (destruct x; cbn in E; try discriminate; exact Logic.I).
    rewrite tg_push_eq in E by exact X. unfold g_push_t in E.
    destruct (g_enabled g); cbn [negb] in E; [|discriminate].
    destruct (s_put_t _ _ _ _ _ _ _) as [[[b rs] s]| |] eqn:Ep; cbn [bind] in E; try discriminate.
    destruct (g_finish_all ne (g_out g) rs) as [ds| |] eqn:Ef; cbn [bind] in E; try discriminate.
    destruct b as [b|]; [discriminate|]. injection E as <- _.
    destruct (put_t_threw ne _ _ _ _ _ _ _ _ Ep) as (a & t & _ & _ & -> & Th). cbn [g_finish_all] in Ef.
    destruct (g_finish ne (g_out g) _) as [d| |] eqn:Ed; cbn [bind] in Ef; try discriminate. injection Ef as <-.
    exists d. split; [reflexivity|]. unfold push_handler_t in Th. now rewrite Ed in Th.
  Qed.
  Lemma rcall_t_spec th p x c1 c2 r b recs r' : rg_call_opt_t ne th p x c1 c2 r = Ok (b, recs, r') ->
    rg_dict r' = rg_dict r /\ if b then exists d, recs = [d] /\ th d = true else forall d, In d recs -> th d = false.
  Proof.
    destruct p as [p|]; cbn [rg_call_opt_t]; [|intros E; injection E as <- <- <-; split; [reflexivity|intros d []]].
    unfold rg_call_pusher_t. destruct (find_obj _ _) as [[pos g]|]; [|intros E; injection E as <- <- <-; split; [reflexivity|intros d []]].
    destruct (pusher_live _ _).
    - destruct (pu_handler _).
      + destruct (tg_push ne x th c1 c2 g) as [[o g1]| |] eqn:Et; cbn [bind]; try discriminate.
        intros E; injection E as <- <- <-. split; [reflexivity|]. destruct o as [o|recs1].
        * eapply push_ret; eauto.
        * eapply push_threw_one; eauto.
      + destruct (g_call ne (GoPush x false c1 c2) g) as [[o g1]| |] eqn:Et; cbn [bind]; try discriminate.
        intros E; injection E as <- <- <-. split; [reflexivity|].
        assert (X : not_list x) by (destruct x; cbn in Et; try discriminate; exact Logic.I). rewrite call_push in Et by exact X.
        unfold g_push_with in Et. destruct (g_enabled g); cbn [negb bind] in Et; [|injection Et as <- _; intros d []].
        destruct (g_add_with _ _ _) as [[b1 g2]| |]; cbn [bind] in Et; try discriminate. injection Et as <- _. intros d [].
    - cbn [bind]. intros E; injection E as <- <- <-. split; [reflexivity|intros d []].
  Qed.

  Lemma calls_app a b : handler_calls (a ++ b) = handler_calls a ++ handler_calls b.
  Proof. apply flat_map_app. Qed.
  Lemma calls_map n recs : handler_calls (map (LHandler n) recs) = map (fun a => (n, a)) recs.
  Proof. unfold handler_calls. induction recs; simpl; congruence. Qed.
  Lemma calls_map2 l : handler_calls (map (fun q => LHandler (fst q) (snd q)) l) = l.
  Proof. unfold handler_calls. induction l as [|[n a] l IH]; simpl; congruence. Qed.
  Definition ended (th : name -> adata -> bool) (b : bool) (l : list (name * adata)) : Prop := if b then throws_last th l else throws_never th l.
  Lemma ended_pre th b l m : throws_never th l -> ended th b m -> ended th b (l ++ m).
  Proof.
    intros H. destruct b; cbn [ended].
    - intros (l1 & n & a & -> & T & Q). exists (l ++ l1), n, a. rewrite app_assoc. split; [reflexivity|]. split; [exact T|].
      intros x y I. apply in_app_iff in I as [I|I]; [exact (H _ _ I)|exact (Q _ _ I)].
    - intros Q x y I. apply in_app_iff in I as [I|I]; [exact (H _ _ I)|exact (Q _ _ I)].
  Qed.
  Lemma never_nil th : throws_never th []. Proof. intros m b []. Qed.
  Lemma get_name_dict id r r' : rg_dict r' = rg_dict r -> rg_get_name id r' = rg_get_name id r.
  Proof. unfold rg_get_name. intros ->. reflexivity. Qed.

  Lemma call_t_ended th p d x cl s b ev s' : y_call_t ne th p d x cl s = Ok (b, ev, s') -> ended th b (handler_calls ev).
  Proof.
    unfold y_call_t. destruct (rg_call_opt_t _ _ _ _ _ _ _) as [[[b1 recs] r]| |] eqn:Er; cbn [bind]; try discriminate.
    destruct (rcall_t_spec _ _ _ _ _ _ _ _ _ Er) as [Dd Q].
    destruct (y_deliver d recs _) as [ev1| |] eqn:Ed; cbn [bind]; try discriminate. intros E; injection E as <- <- _.
    assert (H : forall n, dest_t th d (y_reg s) = th n -> ended th b1 (map (fun a => (n, a)) recs)).
    { intros n En. rewrite En in Q. destruct b1; cbn [ended].
      - destruct Q as (a & -> & T). exists [], n, a. split; [reflexivity|]. split; [exact T|intros ? ? []].
      - intros m a I. apply in_map_iff in I as (a' & I1 & I2). injection I1 as <- <-. apply Q. exact I2. }
    unfold y_deliver in Ed. destruct recs as [|a recs].
    { injection Ed as <-. destruct b1; cbn [ended]; [destruct Q as (? & ? & _); discriminate|]. apply never_nil. }
    destruct d as [id|n]; cbn [dest_t] in *.
    - destruct (y_alive (y_set_reg r s)); [|discriminate]. injection Ed as <-. rewrite calls_map2. unfold w_deliver.
      change (y_reg (y_set_reg r s)) with r. rewrite (get_name_dict id _ _ Dd).
      destruct (rg_get_name id (y_reg s)) as [|c n] eqn:En.
      + destruct b1; cbn [ended]; [destruct Q as (? & _ & ?); discriminate|]. apply never_nil.
      + apply H. reflexivity.
    - injection Ed as <-. rewrite (calls_map n (a :: recs) : handler_calls (LHandler n a :: map (LHandler n) recs) = _). apply H. reflexivity.
  Qed.
  Lemma report_t_ended th rp cl s b ev s' : y_report_t ne th rp cl s = Ok (b, ev, s') -> ended th b (handler_calls ev).
  Proof.
    unfold y_report_t. destruct (nth_error _ _) as [[p id|p to]|]; destruct (rp_sizes rp) as [[rd wr]|]; try discriminate.
    - apply call_t_ended.
    - destruct (y_call_t ne th (cp_time p) _ _ _ s) as [[[b1 e1] s1]| |] eqn:E1; cbn [bind]; try discriminate.
      apply call_t_ended in E1. destruct b1; [intros E; injection E as <- <- _; exact E1|].
      destruct (y_call_t ne th (cp_read p) _ _ _ s1) as [[[b2 e2] s2]| |] eqn:E2; cbn [bind]; try discriminate.
      apply call_t_ended in E2. destruct b2; [intros E; injection E as <- <- _; rewrite calls_app; now apply ended_pre|].
      destruct (y_call_t ne th (cp_write p) _ _ _ s2) as [[[b3 e3] s3]| |] eqn:E3; cbn [bind]; try discriminate.
      apply call_t_ended in E3. intros E; injection E as <- <- _. rewrite !calls_app. apply ended_pre; [exact E1|]. now apply ended_pre.
  Qed.
  Lemma events_t_ended th es cl : forall s b ev s', y_events_t ne th es cl s = Ok (b, ev, s') -> ended th b (handler_calls ev).
  Proof.
    induction es as [|e es IH]; intros s b ev s'; cbn [y_events_t].
    - intros E; injection E as <- <- _. apply never_nil.
    - assert (HE : forall b1 e1 s1, match e with EvReport rp => y_report_t ne th rp cl s | _ => Ok (false, [], s) end = Ok (b1, e1, s1) ->
                ended th b1 (handler_calls e1)).
      { intros b1 e1 s1. destruct e as [f|rp|f]; [|apply report_t_ended|]; intros E; injection E as <- <- _; apply never_nil. }
      destruct (match e with EvReport rp => _ | _ => _ end) as [[[b1 e1] s1]| |]; cbn [bind]; try discriminate.
      specialize (HE _ _ _ eq_refl). destruct b1.
      + intros E; injection E as <- <- _. exact HE.
      + destruct (y_events_t ne th es cl s1) as [[[b2 e2] s2]| |] eqn:E2; cbn [bind]; try discriminate.
        intros E; injection E as <- <- _. change (handler_calls (LPoint e :: e1 ++ e2)) with (handler_calls (e1 ++ e2)). rewrite calls_app.
        apply ended_pre; [exact HE|]. eapply IH; eauto.
  Qed.
  Lemma give_ended th l : ended th (fst (give th l)) (snd (give th l)).
  Proof.
    induction l as [|[n a] l IH]; cbn [give fst snd]; [apply never_nil|].
    destruct (th n a) eqn:E; cbn [fst snd].
    - exists [], n, a. split; [reflexivity|]. split; [exact E|intros ? ? []].
    - destruct (give th l) as [b l1]. cbn [fst snd] in *. apply (ended_pre th b [(n, a)] l1); [|exact IH].
      intros m c [I|[]]. now injection I as <- <-.
  Qed.
  Lemma give_split th l : if fst (give th l)
    then exists n a l2, l = snd (give th l) ++ l2 /\ exists l1, snd (give th l) = l1 ++ [(n, a)] /\ th n a = true
    else snd (give th l) = l.
  Proof.
    induction l as [|[n a] l IH]; cbn [give fst snd]; [reflexivity|].
    destruct (th n a) eqn:E; cbn [fst snd].
    - exists n, a, l. split; [reflexivity|]. exists []. auto.
    - destruct (give th l) as [b l1]. cbn [fst snd] in *. destruct b.
      + destruct IH as (m & c & l2 & -> & l3 & -> & T). exists m, c, l2. split; [reflexivity|]. exists ((n, a) :: l3). auto.
      + now rewrite IH.
  Qed.
  Lemma do_no_calls op s ev s' : match op with YPt _ _ | YPushout _ _ | YDestroy _ => False | _ => True end ->
    y_do ne op s = Ok (ev, s') -> handler_calls ev = [].
  Proof.
    assert (MI : forall id s ev s', y_meter_id id s = Ok (ev, s') -> handler_calls ev = []).
    { intros id s0 e0 s1. unfold y_meter_id. destruct (rg_pusher _ _ _) as [[p|]| |]; cbn [bind]; try discriminate; intros E; injection E as <- _; reflexivity. }
    destruct op as [id|e n now|id sum|order e n sum now|o cl|g|force clk|clk]; intros H; try contradiction; cbn [y_do]; destruct (negb _); try discriminate.
    - apply MI.
    - unfold y_meter_name. destruct (rg_create _ _ _ _ _) as [[id r]| |]; cbn [bind]; try discriminate. apply MI.
    - unfold y_comp_id. destruct (rg_composite _ _ _ _ _ _ _ _) as [[p|]| |]; cbn [bind]; try discriminate; intros E; injection E as <- _; reflexivity.
    - unfold y_comp_name. destruct (rg_composite_name _ _ _ _ _ _ _ _) as [[[p|] r]| |]; cbn [bind]; try discriminate; intros E; injection E as <- _; reflexivity.
    - destruct (rg_do _ _ _) as [[o r]| |]; cbn [bind]; try discriminate. intros E; injection E as <- _; reflexivity.
  Qed.
  Lemma do_t_ended th op s e ev s' : y_do_t ne th op s = Ok (e, ev, s') ->
    ended th (match e with EndReturn => false | _ => true end) (handler_calls ev).
  Proof.
    assert (PLAIN : match op with YPt _ _ | YPushout _ _ | YDestroy _ => False | _ => True end ->
      ('(ev0, s1) <- y_do ne op s ;; Ok (EndReturn, ev0, s1)) = Ok (e, ev, s') -> ended th (match e with EndReturn => false | _ => true end) (handler_calls ev)).
    { intros H. destruct (y_do ne op s) as [[ev0 s1]| |] eqn:E0; cbn [bind]; try discriminate. intros E; injection E as <- <- _.
      rewrite (do_no_calls _ _ _ _ H E0). apply never_nil. }
    destruct op as [id|e0 n now|id sum|order e0 n sum now|o cl|g|force clk|clk]; cbn [y_do_t]; try (apply PLAIN; exact Logic.I).
    - destruct (y_typed o s); [|intros E; injection E as <- <- _; apply never_nil].
      destruct (m_do o (y_pts s)) as [es pts]. destruct (y_events_t ne th es cl s) as [[[b ev1] s1]| |] eqn:Ee; cbn [bind]; try discriminate.
      apply events_t_ended in Ee. destruct b; intros E; injection E as <- <- _; [|exact Ee]. destruct o; exact Ee.
    - destruct (negb _); [discriminate|]. destruct (w_pushout _ _ _ _) as [[l w]| |]; cbn [bind]; try discriminate.
      pose proof (give_ended th l) as G. destruct (give th l) as [b l1]. cbn [fst snd] in G. intros E. injection E as <- <- _. destruct b.
      + rewrite calls_map2. exact G.
      + rewrite calls_app, calls_map2. cbn [handler_calls flat_map]. rewrite app_nil_r. exact G.
    - destruct (negb _); [discriminate|]. destruct (w_pushout _ _ _ _) as [[l w]| |]; cbn [bind]; try discriminate.
      pose proof (give_ended th l) as G. destruct (give th l) as [b l1]. cbn [fst snd] in G. intros E. injection E as <- <- _. rewrite calls_map2.
      destruct b; exact G.
  Qed.

  (** * A handler that does not throw: as always *)
  Lemma rcall_quiet th p x c1 c2 r recs r' : rg_call_opt ne p x c1 c2 r = Ok (recs, r') -> (forall d, In d recs -> th d = false) ->
    rg_call_opt_t ne th p x c1 c2 r = Ok (false, recs, r').
  Proof.
    destruct p as [p|]; cbn [rg_call_opt rg_call_opt_t]; [|intros E; injection E as <- <-; reflexivity].
    unfold rg_call_pusher, rg_call_pusher_t. destruct (find_obj _ _) as [[pos g]|]; [|intros E; injection E as <- <-; reflexivity].
    unfold g_call_pusher. destruct (pusher_live _ _); [|cbn [bind]; intros E; injection E as <- <-; reflexivity].
    destruct (g_call ne (GoPush x (pu_handler (rp_pu p)) c1 c2) g) as [[o g1]| |] eqn:Ec; cbn [bind]; try discriminate.
    intros E; injection E as <- <-. intros Q.
    assert (X : not_list x) by (destruct x; cbn in Ec; try discriminate; exact Logic.I).
    destruct (pu_handler (rp_pu p)).
    - rewrite (push_quiet ne _ th _ _ _ _ _ X Ec Q). reflexivity.
    - rewrite Ec. reflexivity.
  Qed.
  Lemma never_app th l m : throws_never th (l ++ m) -> throws_never th l /\ throws_never th m.
  Proof. intros H; split; intros x y I; apply H; apply in_app_iff; auto. Qed.
  Lemma call_quiet th p d x cl s ev s' : y_call ne p d x cl s = Ok (ev, s') -> throws_never th (handler_calls ev) ->
    y_call_t ne th p d x cl s = Ok (false, ev, s').
  Proof.
    unfold y_call, y_call_t. destruct (rg_call_opt _ _ _ _ _ _) as [[recs r]| |] eqn:Er; cbn [bind]; try discriminate.
    destruct (y_deliver d recs _) as [ev1| |] eqn:Ed; cbn [bind]; try discriminate. intros E; injection E as <- <-. intros Q.
    assert (Dd : rg_dict r = rg_dict (y_reg s)).
    { clear - Er. destruct p as [p|]; cbn [rg_call_opt] in Er; [|now injection Er as _ <-]. unfold rg_call_pusher in Er.
      destruct (find_obj _ _) as [[pos g]|]; [|now injection Er as _ <-]. destruct (g_call_pusher _ _ _) as [[rc g1]| |]; cbn [bind] in Er; try discriminate.
      now injection Er as _ <-. }
    rewrite (rcall_quiet (dest_t th d (y_reg s)) _ _ _ _ _ _ _ Er).
    - cbn [bind]. rewrite Ed. reflexivity.
    - intros a I. unfold y_deliver in Ed. destruct recs as [|a0 recs]; [destruct I|]. destruct d as [id|n]; cbn [dest_t].
      + destruct (y_alive _); [|discriminate]. injection Ed as <-. rewrite calls_map2 in Q. unfold w_deliver in Q.
        change (y_reg (y_set_reg r s)) with r in Q. rewrite (get_name_dict id _ _ Dd) in Q.
        destruct (rg_get_name id (y_reg s)) as [|c n] eqn:En; [reflexivity|]. apply Q. apply in_map_iff. eauto.
      + injection Ed as <-. rewrite (calls_map n (a0 :: recs) : handler_calls (LHandler n a0 :: map (LHandler n) recs) = _) in Q. apply Q. apply in_map_iff. eauto.
  Qed.
  Lemma report_quiet th rp cl s ev s' : y_report ne rp cl s = Ok (ev, s') -> throws_never th (handler_calls ev) ->
    y_report_t ne th rp cl s = Ok (false, ev, s').
  Proof.
    unfold y_report, y_report_t. destruct (nth_error _ _) as [[p id|p to]|]; destruct (rp_sizes rp) as [[rd wr]|]; try discriminate.
    - apply call_quiet.
    - destruct (y_call ne (cp_time p) _ _ _ s) as [[e1 s1]| |] eqn:E1; cbn [bind]; try discriminate.
      destruct (y_call ne (cp_read p) _ _ _ s1) as [[e2 s2]| |] eqn:E2; cbn [bind]; try discriminate.
      destruct (y_call ne (cp_write p) _ _ _ s2) as [[e3 s3]| |] eqn:E3; cbn [bind]; try discriminate.
      intros E; injection E as <- <-. rewrite !calls_app. intros Q. apply never_app in Q as [Q1 Q]. apply never_app in Q as [Q2 Q3].
      rewrite (call_quiet th _ _ _ _ _ _ _ E1 Q1). cbn [bind]. rewrite (call_quiet th _ _ _ _ _ _ _ E2 Q2). cbn [bind].
      rewrite (call_quiet th _ _ _ _ _ _ _ E3 Q3). reflexivity.
  Qed.
  Lemma events_quiet th es cl : forall s ev s', y_events ne es cl s = Ok (ev, s') -> throws_never th (handler_calls ev) ->
    y_events_t ne th es cl s = Ok (false, ev, s').
  Proof.
    induction es as [|e es IH]; intros s ev s'; cbn [y_events y_events_t].
    - intros E; injection E as <- <-. reflexivity.
    - destruct (match e with EvReport rp => y_report ne rp cl s | _ => _ end) as [[e1 s1]| |] eqn:E1; cbn [bind]; try discriminate.
      destruct (y_events ne es cl s1) as [[e2 s2]| |] eqn:E2; cbn [bind]; try discriminate. intros E; injection E as <- <-.
      change (handler_calls (LPoint e :: e1 ++ e2)) with (handler_calls (e1 ++ e2)). rewrite calls_app. intros Q. apply never_app in Q as [Q1 Q2].
      assert (F : match e with EvReport rp => y_report_t ne th rp cl s | _ => Ok (false, [], s) end = Ok (false, e1, s1)).
      { destruct e as [f|rp|f]; [injection E1 as <- <-; reflexivity|apply report_quiet; auto|injection E1 as <- <-; reflexivity]. }
      rewrite F. cbn [bind]. rewrite (IH _ _ _ E2 Q2). reflexivity.
  Qed.
  (** The points play no part in the reports. *)
  Definition with_pts (pts : store) (s : sys) : sys := mk_sys (y_wrt s) (y_alive s) (y_funs s) pts.
  Lemma call_pts p d x cl pts s : y_call ne p d x cl (with_pts pts s) = ('(ev, s') <- y_call ne p d x cl s ;; Ok (ev, with_pts pts s')).
  Proof.
    unfold y_call. change (y_reg (with_pts pts s)) with (y_reg s). destruct (rg_call_opt _ _ _ _ _ _) as [[recs r]| |]; cbn [bind]; auto.
    change (y_deliver d recs (y_set_reg r (with_pts pts s))) with (y_deliver d recs (y_set_reg r s)).
    destruct (y_deliver _ _ _); cbn [bind]; auto.
  Qed.
  Lemma report_pts rp cl pts s : y_report ne rp cl (with_pts pts s) = ('(ev, s') <- y_report ne rp cl s ;; Ok (ev, with_pts pts s')).
  Proof.
    unfold y_report. change (y_funs (with_pts pts s)) with (y_funs s).
    destruct (nth_error _ _) as [[p id|p to]|]; destruct (rp_sizes rp) as [[rd wr]|]; auto.
    - apply call_pts.
    - rewrite call_pts. destruct (y_call ne (cp_time p) _ _ _ s) as [[e1 s1]| |]; cbn [bind]; auto.
      rewrite call_pts. destruct (y_call ne (cp_read p) _ _ _ s1) as [[e2 s2]| |]; cbn [bind]; auto.
      rewrite call_pts. destruct (y_call ne (cp_write p) _ _ _ s2) as [[e3 s3]| |]; cbn [bind]; auto.
  Qed.
  Lemma events_pts es cl pts : forall s, y_events ne es cl (with_pts pts s) = ('(ev, s') <- y_events ne es cl s ;; Ok (ev, with_pts pts s')).
  Proof.
    induction es as [|e es IH]; intros s; cbn [y_events bind]; [reflexivity|].
    assert (F : match e with EvReport rp => y_report ne rp cl (with_pts pts s) | _ => Ok ([], with_pts pts s) end =
      ('(ev, s') <- match e with EvReport rp => y_report ne rp cl s | _ => Ok ([], s) end ;; Ok (ev, with_pts pts s'))).
    { destruct e as [f|rp|f]; cbn [bind]; try reflexivity. apply report_pts. }
    rewrite F. destruct (match e with EvReport rp => y_report ne rp cl s | _ => _ end) as [[e1 s1]| |]; cbn [bind]; auto.
    rewrite IH. destruct (y_events ne es cl s1) as [[e2 s2]| |]; cbn [bind]; auto.
  Qed.
  Lemma do_quiet th op s ev s' : y_do ne op s = Ok (ev, s') -> throws_never th (handler_calls ev) ->
    y_do_t ne th op s = Ok (EndReturn, ev, s').
  Proof.
    assert (GV : forall l, throws_never th l -> give th l = (false, l)).
    { induction l as [|[n a] l IH]; intros Q; cbn [give]; [reflexivity|]. rewrite (Q n a (or_introl eq_refl)).
      rewrite IH; [reflexivity|]. intros m b I. apply Q. now right. }
    destruct op as [id|e0 n now|id sum|order e0 n sum now|o cl|g|force clk|clk]; intros E Q; try (cbn [y_do_t]; rewrite E; reflexivity).
    - cbn [y_do y_do_t] in *. destruct (y_typed o s); [|injection E as <- <-; reflexivity].
      destruct (m_do o (y_pts s)) as [es pts]. fold (with_pts pts s) in E. rewrite events_pts in E.
      destruct (y_events ne es cl s) as [[ev1 s1]| |] eqn:Ee; cbn [bind] in E; try discriminate. injection E as <- <-.
      rewrite (events_quiet th _ _ _ _ _ Ee Q). reflexivity.
    - cbn [y_do y_do_t] in *. destruct (negb _); [discriminate|]. destruct (w_pushout _ _ _ _) as [[l w]| |]; cbn [bind] in *; try discriminate.
      injection E as <- <-. rewrite calls_app, calls_map2 in Q. apply never_app in Q as [Q _]. rewrite (GV _ Q). reflexivity.
    - cbn [y_do y_do_t] in *. destruct (negb _); [discriminate|]. destruct (w_pushout _ _ _ _) as [[l w]| |]; cbn [bind] in *; try discriminate.
      injection E as <- <-. rewrite calls_map2 in Q. rewrite (GV _ Q). reflexivity.
  Qed.

  (** * After a throw *)
  Lemma find_obj_set o g1 : forall l pos g, find_obj o l = Some (pos, g) -> find_obj o (@set_nth (option obj) pos (@Some obj (o, g1)) l) = Some (pos, g1).
  Proof.
    induction l as [|x l IH]; intros pos g; cbn [find_obj]; [discriminate|].
    destruct x as [[o' g']|].
    - destruct (o =? o')%nat eqn:Eo.
      + intros E; injection E as <- <-. cbn [set_nth find_obj]. now rewrite Nat.eqb_refl.
      + destruct (find_obj o l) as [[p g0]|] eqn:Ef; cbn [option_map fst snd]; [|discriminate]. intros E; injection E as <- <-.
        cbn [set_nth find_obj]. rewrite Eo, (IH _ _ eq_refl). reflexivity.
    - destruct (find_obj o l) as [[p g0]|] eqn:Ef; cbn [option_map fst snd]; [|discriminate]. intros E; injection E as <- <-.
      cbn [set_nth find_obj]. rewrite (IH _ _ eq_refl). reflexivity.
  Qed.
  Lemma find_set_reg o g1 r pos g : find_obj o (rg_arr r) = Some (pos, g) -> find_obj o (rg_arr (rg_set pos (Some (o, g1)) r)) = Some (pos, g1).
  Proof. apply find_obj_set. Qed.
  Lemma set_set {A} i (x y : A) : forall l, set_nth i x (set_nth i y l) = set_nth i x l.
  Proof. induction i; destruct l; simpl; auto. now rewrite IHi. Qed.
  Lemma threw_sep x th c1 c2 g recs g1 : tg_push ne x th c1 c2 g = Ok (TThrew recs, g1) ->
    r_empty (s_red (g_sep g1)) = true /\ g1 = g_set_sep (g_sep g1) g.
  Proof.
    intros E. assert (X : not_list x) by (destruct x; cbn in E; try discriminate; exact Logic.I).
    rewrite tg_push_eq in E by exact X. unfold g_push_t in E.
    destruct (g_enabled g); cbn [negb] in E; [|discriminate].
    destruct (s_put_t _ _ _ _ _ _ _) as [[[b rs] s]| |] eqn:Ep; cbn [bind] in E; try discriminate.
    destruct (g_finish_all ne (g_out g) rs) as [ds| |] eqn:Ef; cbn [bind] in E; try discriminate.
    destruct b as [b|]; [discriminate|]. injection E as _ <-.
    destruct (put_t_threw ne _ _ _ _ _ _ _ _ Ep) as (a & t & _ & (r & t' & Ed & _ & ->) & _). cbn. split; [|reflexivity].
    eapply detach_empty; eauto.
  Qed.
  (** The open window is empty: nothing can be delivered, whatever the time. *)
  Lemma empty_push x h c1 c2 g o g' : r_empty (s_red (g_sep g)) = true -> g_call ne (GoPush x h c1 c2) g = Ok (o, g') -> out_handler o = [].
  Proof.
    intros Er E. assert (X : not_list x) by (destruct x; cbn in E; try discriminate; exact Logic.I).
    rewrite call_push in E by exact X. unfold g_push_with in E.
    destruct (g_enabled g); cbn [negb bind] in E; [|injection E as <- _; reflexivity].
    destruct h; cbn [negb] in E.
    - rewrite spush_eq in E by exact X. destruct (s_put _ _ _ _ _ _ _) as [[[b rc] s1]| |] eqn:Ep; cbn [bind] in E; try discriminate.
      assert (rc = []) as ->.
      { unfold s_put in Ep. destruct (get_ts _ _ _ _); cbn [bind] in Ep; try discriminate.
        destruct (s_separate _ _ _ _ _ _) as [[[b1 rc1] s2]| |] eqn:Es; cbn [bind] in Ep; try discriminate.
        assert (rc1 = rc) as -> by (destruct (chk _); cbn [bind] in Ep; try discriminate; destruct (_ <? _); now injection Ep).
        unfold s_separate in Es. destruct (get_ts _ _ _ _); cbn [bind] in Es; try discriminate.
        destruct (negb false && _); [now injection Es|]. destruct (sep_loop _ _ _ _ _ _) as [[[rr r2] n2]| |] eqn:EL; cbn [bind] in Es; try discriminate.
        injection Es as _ <- _. eapply loop_empty; eauto. }
      cbn in E. injection E as <- _. reflexivity.
    - destruct (g_add_with _ _ _) as [[b1 g2]| |]; cbn [bind] in E; try discriminate. injection E as <- _. reflexivity.
  Qed.

  Lemma rcall_threw th p x c1 c2 r recs r1 : rg_call_opt_t ne th p x c1 c2 r = Ok (true, recs, r1) ->
    exists q pos g g1, p = Some q /\ find_obj (rp_obj q) (rg_arr r) = Some (pos, g) /\ pusher_live (rp_pu q) g = true /\ pu_handler (rp_pu q) = true /\
      tg_push ne x th c1 c2 g = Ok (TThrew recs, g1) /\ r1 = rg_set pos (Some (rp_obj q, g1)) r.
  Proof.
    destruct p as [q|]; cbn [rg_call_opt_t]; [|discriminate]. unfold rg_call_pusher_t.
    destruct (find_obj _ _) as [[pos g]|] eqn:Ef; [|discriminate]. destruct (pusher_live _ _) eqn:El; [|cbn [bind]; discriminate].
    destruct (pu_handler _) eqn:Eh.
    - destruct (tg_push ne x th c1 c2 g) as [[o g1]| |] eqn:Et; cbn [bind]; try discriminate. destruct o as [o|rs]; intros E; [discriminate|].
      injection E as <- <-. exists q, pos, g, g1. rewrite Ef. auto 10.
    - destruct (g_call _ _ _) as [[o g1]| |]; cbn [bind]; discriminate.
  Qed.
  Lemma rcall_retry th p x c1 c2 r recs0 r' recs r1 : rg_call_opt ne p x c1 c2 r = Ok (recs0, r') ->
    rg_call_opt_t ne th p x c1 c2 r = Ok (true, recs, r1) -> rg_call_opt ne p x c1 c2 r1 = Ok ([], r').
  Proof.
    intros E T. destruct (rcall_threw _ _ _ _ _ _ _ _ T) as (q & pos & g & g1 & -> & Ef & El & Eh & Et & ->).
    cbn [rg_call_opt] in *. unfold rg_call_pusher in *. rewrite Ef in E. rewrite (find_set_reg _ g1 _ _ _ Ef). unfold g_call_pusher in *. rewrite El in E.
    destruct (threw_sep _ _ _ _ _ _ _ Et) as [_ Eg].
    assert (El1 : pusher_live (rp_pu q) g1 = true) by (rewrite Eg; exact El). rewrite El1. rewrite Eh in *.
    destruct (g_call ne (GoPush x true c1 c2) g) as [[o g2]| |] eqn:Ec; cbn [bind] in E; try discriminate. injection E as <- <-.
    rewrite (push_retry ne _ _ _ _ _ _ _ _ _ Ec Et). cbn [bind out_handler]. unfold rg_set. cbn [rg_arr rg_opt rg_dict rg_enabled rg_initializer rg_next].
    now rewrite set_set.
  Qed.
  Lemma rcall_after th p x c1 c2 r recs r1 x2 d1 d2 rs r2 : rg_call_opt_t ne th p x c1 c2 r = Ok (true, recs, r1) ->
    rg_call_opt ne p x2 d1 d2 r1 = Ok (rs, r2) -> rs = [].
  Proof.
    intros T E. destruct (rcall_threw _ _ _ _ _ _ _ _ T) as (q & pos & g & g1 & -> & Ef & El & Eh & Et & ->).
    cbn [rg_call_opt] in *. unfold rg_call_pusher in *. rewrite (find_set_reg _ g1 _ _ _ Ef) in E. unfold g_call_pusher in *.
    destruct (threw_sep _ _ _ _ _ _ _ Et) as [Er Eg]. destruct (pusher_live _ g1); cbn [bind] in E; [|injection E as <- _; reflexivity].
    destruct (g_call ne _ g1) as [[o g2]| |] eqn:Ec; cbn [bind] in E; try discriminate. injection E as <- _. eapply empty_push; eauto.
  Qed.

  Lemma ycall_threw th p d x cl s ev s1 : y_call_t ne th p d x cl s = Ok (true, ev, s1) ->
    exists recs r1, rg_call_opt_t ne (dest_t th d (y_reg s)) p x (fst cl) (snd cl) (y_reg s) = Ok (true, recs, r1) /\ s1 = y_set_reg r1 s.
  Proof.
    unfold y_call_t. destruct (rg_call_opt_t _ _ _ _ _ _ _) as [[[b recs] r1]| |] eqn:Er; cbn [bind]; try discriminate.
    destruct (y_deliver _ _ _); cbn [bind]; try discriminate. intros E; injection E as -> _ <-. eauto.
  Qed.
  Lemma ycall_retry th p d x cl s ev0 s' ev s1 : y_call ne p d x cl s = Ok (ev0, s') -> y_call_t ne th p d x cl s = Ok (true, ev, s1) ->
    y_call ne p d x cl s1 = Ok ([], s').
  Proof.
    intros E T. destruct (ycall_threw _ _ _ _ _ _ _ _ T) as (recs & r1 & Er & ->). unfold y_call in *.
    destruct (rg_call_opt ne p x (fst cl) (snd cl) (y_reg s)) as [[rc r']| |] eqn:Ec; cbn [bind] in E; try discriminate.
    change (y_reg (y_set_reg r1 s)) with r1. rewrite (rcall_retry _ _ _ _ _ _ _ _ _ _ Ec Er). cbn [bind y_deliver].
    destruct (y_deliver _ _ _); cbn [bind] in E; try discriminate. injection E as _ <-. reflexivity.
  Qed.
  Lemma ycall_after th p d x cl s ev s1 x2 cl2 ev2 s2 : y_call_t ne th p d x cl s = Ok (true, ev, s1) ->
    y_call ne p d x2 cl2 s1 = Ok (ev2, s2) -> ev2 = [].
  Proof.
    intros T E. destruct (ycall_threw _ _ _ _ _ _ _ _ T) as (recs & r1 & Er & ->). unfold y_call in *. change (y_reg (y_set_reg r1 s)) with r1 in E.
    destruct (rg_call_opt ne p x2 (fst cl2) (snd cl2) r1) as [[rc r']| |] eqn:Ec; cbn [bind] in E; try discriminate.
    rewrite (rcall_after _ _ _ _ _ _ _ _ _ _ _ _ _ Er Ec) in E. cbn in E. now injection E as <- _.
  Qed.

  Lemma push_simple now clk p : match p_kind p with KComp _ => False | _ => True end ->
    forall rp, In rp (fst (p_push now clk p)) -> rp_sizes rp = None /\ p_fun p = Some (rp_fun rp).
  Proof.
    unfold p_push. destruct (p_fun p) as [f|]; [|intros _ rp []]. destruct (p_kind p); intros K; try contradiction; intros rp [<-|[]]; auto.
  Qed.
  Lemma push_one now clk p : fst (p_push now clk p) = [] \/ exists rp, fst (p_push now clk p) = [rp].
  Proof. unfold p_push. destruct (p_fun p); [|auto]. right. destruct (p_kind p); cbn [fst]; eexists; reflexivity. Qed.

  Lemma threw_point th i now clk cl s ev1 s1 : simple_point s i -> y_do_t ne th (YPt (MPush i now clk) cl) s = Ok (EndThrow, ev1, s1) ->
    exists p rp q id, m_get i (y_pts s) = Some p /\ fst (p_push now clk p) = [rp] /\ rp_sizes rp = None /\ nth_error (y_funs s) (rp_fun rp) = Some (FOne q id) /\
      y_pts s1 = y_pts s /\ y_funs s1 = y_funs s /\
      exists ev, y_call_t ne th (Some q) (DId id) (SmScalar (rp_now rp) (rp_value rp) (rp_count rp)) (cl RoTime) s = Ok (true, ev, s1).
  Proof.
    intros SP T. unfold simple_point in SP. cbn [y_do_t y_typed m_do] in T. destruct (m_get i (y_pts s)) as [p|] eqn:Ep; [|contradiction].
    destruct (push_one now clk p) as [E0|[rp E0]]; rewrite E0 in T; cbn [map y_events_t bind] in T; [discriminate|].
    destruct (push_simple now clk p SP rp) as [Sz Fn]; [rewrite E0; now left|].
    unfold y_report_t in T. rewrite Sz in T. destruct (nth_error (y_funs s) (rp_fun rp)) as [[q id|? ?]|] eqn:En; cbn [bind] in T; try discriminate.
    destruct (y_call_t ne th (Some q) _ _ _ s) as [[[b e1] s2]| |] eqn:Ec; cbn [bind] in T; try discriminate. destruct b; [|cbn [bind at_throw] in T; discriminate].
    cbn [bind at_throw] in T. injection T as _ <-. destruct (ycall_threw _ _ _ _ _ _ _ _ Ec) as (recs & r1 & _ & Es).
    exists p, rp, q, id. rewrite Es at 1 2. cbn [y_set_reg y_pts y_funs]. do 6 (split; [auto|]). exists e1. exact Ec.
  Qed.
  Lemma point_retry th i now clk cl s ev s' ev1 s1 : simple_point s i -> y_do ne (YPt (MPush i now clk) cl) s = Ok (ev, s') ->
    y_do_t ne th (YPt (MPush i now clk) cl) s = Ok (EndThrow, ev1, s1) ->
    y_do ne (YPt (MPush i now clk) cl) s1 = Ok (filter not_handler ev, s').
  Proof.
    intros SP E T. destruct (threw_point _ _ _ _ _ _ _ _ SP T) as (p & rp & q & id & Ep & E0 & Sz & En & Ps & Fs & e1 & Ec).
    cbn [y_do y_typed m_do] in *. rewrite Ps, Ep, E0 in *. cbn [map y_events] in *.
    fold (with_pts (set_nth i (Some (snd (p_push now clk p))) (y_pts s)) s) in E.
    fold (with_pts (set_nth i (Some (snd (p_push now clk p))) (y_pts s)) s1). rewrite report_pts in *.
    unfold y_report in *. rewrite Fs, En, Sz in *.
    destruct (y_call ne (Some q) (DId id) _ _ s) as [[e2 s2]| |] eqn:E2; cbn [bind] in E; try discriminate.
    rewrite (ycall_retry _ _ _ _ _ _ _ _ _ _ E2 Ec). cbn [bind]. injection E as <- <-. cbn [filter not_handler].
    assert (F : filter not_handler (e2 ++ []) = []).
    { clear - E2. rewrite app_nil_r. unfold y_call in E2. destruct (rg_call_opt _ _ _ _ _ _) as [[rc r]| |]; cbn [bind] in E2; try discriminate.
      destruct (y_deliver _ _ _) as [e| |] eqn:Ed; cbn [bind] in E2; try discriminate. injection E2 as <- _. unfold y_deliver in Ed.
      destruct rc; [now injection Ed as <-|]. destruct (y_alive _); [|discriminate]. injection Ed as <-.
      induction (w_deliver id (a :: rc) (y_reg (y_set_reg r s))); simpl; auto. }
    now rewrite F.
  Qed.
  Lemma point_unwind th i now clk cl s ev1 s1 now2 clk2 cl2 ev2 s2 : simple_point s i ->
    y_do_t ne th (YPt (MPush i now clk) cl) s = Ok (EndThrow, ev1, s1) ->
    y_do ne (YPt (MDestroy i now2 clk2) cl2) s1 = Ok (ev2, s2) -> handler_calls ev2 = [].
  Proof.
    intros SP T E. destruct (threw_point _ _ _ _ _ _ _ _ SP T) as (p & rp & q & id & Ep & E0 & Sz & En & Ps & Fs & e1 & Ec).
    cbn [y_do y_typed m_do] in *. rewrite Ps, Ep in *.
    fold (with_pts (set_nth i None (y_pts s)) s1) in E. destruct (push_one now2 clk2 p) as [E2|[rp2 E2]]; rewrite E2 in E; cbn [map y_events] in E.
    - injection E as <- _. reflexivity.
    - rewrite report_pts in E. unfold simple_point in SP. rewrite Ep in SP.
      destruct (push_simple now2 clk2 p SP rp2) as [Sz2 Fn2]; [rewrite E2; now left|].
      destruct (push_simple now clk p SP rp) as [_ Fn]; [rewrite E0; now left|].
      unfold y_report in E. rewrite Sz2, Fs in E. assert (Ef : rp_fun rp2 = rp_fun rp) by congruence. rewrite Ef, En in E.
      destruct (y_call ne (Some q) (DId id) _ _ s1) as [[e2 s3]| |] eqn:Ey; cbn [bind] in E; try discriminate. injection E as <- _.
      rewrite (ycall_after _ _ _ _ _ _ _ _ _ _ _ _ Ec Ey). reflexivity.
  Qed.
End S.
