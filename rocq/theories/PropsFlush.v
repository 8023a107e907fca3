(** Property C34, exactly: what force_pushout() and ~wrtstat hand over in every state. *)
From Coq Require Import ZArith List Bool Arith Lia Ascii.
From Verif Require Import Base SortFacts ModelTypes ModelReducer SpecReducer ModelSeparator SpecSeparator ModelAggregator SpecAggregator
  ModelRegistry SpecRegistry RegFinal PropsRegistry.
Import ListNotations.
Local Open Scope Z_scope.

(** separate() at clock reading [c] answers that the open window has not ended; [g1] is the aggregator then. *)
Definition not_ended (ne : nat -> list Z -> list Z) (c : Z) (g g1 : agg) : Prop :=
  exists l, g_call ne (GoSeparate 0 false false c) g = Ok (mk_sout (Some false) l None, g1).

Section Flush.
  Variable ne : nat -> list Z -> list Z.

  Lemma detach_empties r a r1 : r_detach ne r = Ok (a, r1) -> r_empty r1 = true.
  Proof.
    unfold r_detach. destruct (r_empty r) eqn:E.
    - intros H. now injection H as _ <-.
    - destruct (r_reduce ne r) as [r2| |]; cbn [bind]; try discriminate. destruct (ModelAvg.f64_to_i64 (r_avg r2)); cbn [bind]; try discriminate.
      intros H. now injection H as _ <-.
  Qed.
  Lemma loop_empties f : forall step ts next r recs r2 n2, sep_loop ne f step ts next r = Ok (recs, r2, n2) -> next <= ts -> r_empty r2 = true.
  Proof.
    induction f as [|f IH]; intros step ts next r recs r2 n2 E L; cbn [sep_loop] in E; (destruct (Z.leb_spec next ts) as [_|X]; [|lia]); [discriminate|].
    destruct (r_detach ne r) as [[a r1]| |] eqn:D; cbn [bind] in E; try discriminate. apply detach_empties in D.
    destruct (match a with None => _ | Some _ => _ end) as [rc| |]; cbn [bind] in E; try discriminate.
    destruct (chk (next + step)) as [n1| |]; cbn [bind] in E; try discriminate.
    destruct (sep_loop ne f step ts n1 r1) as [[[rs r3] n3]| |] eqn:R; cbn [bind] in E; try discriminate. injection E as _ <- _.
    destruct (Z.leb_spec n1 ts) as [L1|L1]; [eapply IH; eauto|].
    destruct f; cbn [sep_loop] in R; (destruct (Z.leb_spec n1 ts); [lia|]); now injection R as _ <- _.
  Qed.

  Lemma taken_exact c g d g' : taken ne true c g (Some d) g' <-> exists g1, not_ended ne c g g1 /\ g_force_pop ne g1 = Ok (Some d, g').
  Proof.
    unfold taken, not_ended. cbn [g_call]. unfold g_separate, s_separate.
    destruct (get_ts (s_step (g_sep g)) (s_res (g_sep g)) c 0) as [t| |]; cbn [bind negb andb].
    2, 3: split; [intros (o1 & g1 & o2 & E & _); discriminate|intros (g1 & (l & E) & _); discriminate].
    destruct (Z.ltb_spec t (s_next (g_sep g))) as [L|L].
    - assert (EL : sep_loop ne (sep_fuel (s_step (g_sep g)) t (s_next (g_sep g))) (s_step (g_sep g)) t (s_next (g_sep g)) (s_red (g_sep g))
                     = Ok ([], s_red (g_sep g), s_next (g_sep g))).
      { set (fu := sep_fuel _ _ _). clearbody fu. destruct fu; cbn [sep_loop]; destruct (Z.leb_spec (s_next (g_sep g)) t); try lia; auto. }
      rewrite EL. cbn [bind]. rewrite app_nil_r.
      replace (mk_sep (s_red (g_sep g)) (s_step (g_sep g)) (s_next (g_sep g)) (s_res (g_sep g)) (s_list (g_sep g))) with (g_sep g) by (now destruct (g_sep g)).
      destruct (g_aggregate0_ ne (g_set_sep (g_sep g) g)) as [g1| |]; cbn [bind].
      2, 3: split; [intros (o1 & g2 & o2 & E & _); discriminate|intros (g2 & (l & E) & _); discriminate].
      split.
      + intros (o1 & g2 & o2 & E1 & E2 & E3). injection E1 as _ <-. exists g1. split; [now exists []|].
        destruct (g_force_pop ne g1) as [[a x]| |]; cbn [bind] in E2; try discriminate. injection E2 as <- <-. cbn in E3. congruence.
      + intros (g2 & (l & E1) & E2). injection E1 as _ <-. exists (mk_sout (Some true) [] None), g1, (mk_sout None [] (Some d)).
        rewrite E2. auto.
    - split; [|intros (g1 & (l & E) & _)].
      + intros (o1 & g1 & o2 & E1 & E2 & E3). exfalso.
        destruct (sep_loop ne _ _ _ _ _) as [[[rc r2] nx]| |] eqn:EL; cbn [bind] in E1; try discriminate.
        apply loop_empties in EL; [|exact L]. unfold g_aggregate0_ in E1. cbn [g_set_sep g_sep s_list g_out s_red s_step s_next s_res] in E1.
        destruct (g_finish_all ne (g_out g) (s_list (g_sep g) ++ rc)) as [ds| |]; cbn [bind] in E1; try discriminate. injection E1 as _ <-.
        unfold g_force_pop, s_force_pop, s_pop in E2. cbn [g_sep s_list s_red s_step s_next s_res g_out] in E2. unfold r_detach in E2. rewrite EL in E2. cbn in E2.
        injection E2 as <- _. discriminate.
      + exfalso. destruct (sep_loop ne _ _ _ _ _) as [[[rc r2] nx]| |]; cbn [bind] in E; try discriminate.
        destruct (g_aggregate0_ _ _); cbn [bind] in E; discriminate.
  Qed.
End Flush.

(** In every reachable state: each name is handed over at most once; a record is handed over for a name exactly if its open window has
    not ended by the clock and is not empty, and it is that window (force_pop(), characterised by C26_force_pop_partial).  Nothing is
    handed over for a name whose open window has ended, and no closed window. *)
Theorem C34_exact : forall ne o N clk w l w1, fits o N -> reachable ne o N (w_reg w) -> w_handler w = true ->
  w_pushout ne true clk w = Ok (l, w1) ->
  NoDup (map fst l) /\
  (forall n d, In (n, d) l <->
     exists id s g g1 g', registered (w_reg w) n id s g /\ not_ended ne (clk n) g g1 /\ g_force_pop ne g1 = Ok (Some d, g')).
Proof.
  intros ne o N clk w l w1 F R H E. unfold w_pushout in E. destruct (rg_pop_all ne true clk (w_reg w)) as [[l0 r1]| |] eqn:EP; cbn [bind] in E; try discriminate.
  rewrite H in E. injection E as <- <-. destruct (pop_all_exact ne o N true clk (w_reg w) l0 r1 F R EP) as (A & B & _ & _). split; [exact A|].
  intros n d. rewrite B. split.
  - intros (id & s & g & g' & RG & T). apply taken_exact in T. destruct T as (g1 & T1 & T2). now exists id, s, g, g1, g'.
  - intros (id & s & g & g1 & g' & RG & T1 & T2). exists id, s, g, g'. split; [exact RG|]. apply taken_exact. now exists g1.
Qed.
Print Assumptions C34_exact.

(** Without a handler the call does nothing visible if there is nothing to hand over, and throws otherwise. *)
Theorem C34_no_handler : forall ne clk w, w_handler w = false ->
  forall l w1, w_pushout ne true clk (mk_wrt (w_reg w) true) = Ok (l, w1) ->
  w_pushout ne true clk w = match l with [] => Ok ([], mk_wrt (w_reg w1) false) | _ => Exn end.
Proof.
  intros ne clk w H l w1 E. unfold w_pushout in *. cbn [w_reg w_handler] in E.
  destruct (rg_pop_all ne true clk (w_reg w)) as [[l0 r1]| |]; cbn [bind] in *; try discriminate. rewrite H. injection E as <- <-. reflexivity.
Qed.
Print Assumptions C34_no_handler.

(** The clock of nb has passed the end of its window (120), that of nc has not: only nc is handed over. *)
Definition fl_clk (n : name) : Z := if name_eqb n nb then 121 else 118.
Example C34_exact_witness : exists l w1 id s g g1 g' d, w_pushout ne_rev true fl_clk (mk_wrt rx_r true) = Ok (l, w1) /\
  map (fun p => (fst p, ad_ts (snd p), ad_count (snd p))) l = [(nc, 110, 2)] /\
  registered rx_r nb id s g /\ g_call ne_rev (GoSeparate 0 false false (fl_clk nb)) g = Ok (mk_sout (Some true) [] None, g1) /\
  g_force_pop ne_rev g = Ok (Some d, g') /\ ad_count d = 1.
Proof.
  eexists _, _, 13, 1%nat, _, _, _, _. split; [vm_compute; reflexivity|]. split; [vm_compute; reflexivity|].
  split; [split; [discriminate|]; split; [vm_compute; reflexivity|exists 3%nat; vm_compute; reflexivity]|].
  split; [vm_compute; reflexivity|]. split; [vm_compute; reflexivity|]. reflexivity.
Qed.
Example C34_no_handler_witness : w_pushout ne_rev true fl_clk (mk_wrt rx_r false) = Exn /\
  exists w1, w_pushout ne_rev true (fun _ => 121) (mk_wrt rx_r false) = Ok ([], w1).
Proof. split; [vm_compute; reflexivity|]. eexists. vm_compute. reflexivity. Qed.
