(** Property C103: a packer whose handler uses it (wrtstat/multi_packer/basic_packer.cpp). *)
From Coq Require Import Ascii String ZArith NArith List Bool Permutation Lia PeanoNat.
From Verif Require Import Base ModelTypes ModelRegistry ModelJson ModelPacker SpecPacker PackName PackerProofs PropsPacker
  ModelPackThrow SpecPackThrow PackThrowProofs PropsPackThrow ModelPackReenter SpecPackReenter PackReenterProofs.
Import ListNotations.
Local Open Scope Z_scope.
Local Open Scope list_scope.

(** Every program ends, whatever the handler does in its (finitely many) calls, and its result does not depend on the recursion bound. *)
Theorem C103_ends : forall esc left o h cs hs, (po_ncompact o = true -> po_sep o <> []) ->
  exists n evs p hs', forall m, (n <= m)%nat -> n_calls esc left m cs (pk_new o h) hs = Some (evs, p, hs').
Proof.
  intros esc left o h cs hs Ho.
  destruct (ends esc left o h Ho (S (2 * (wcalls cs + 0 + wprog hs)))) as (_ & B & _).
  destruct (B cs (pk_new o h) hs (SInv_new o h)) as (evs & p & hs' & E & _); [cbn [pk_new pk_top List.length]; lia|].
  exists (S (2 * (wcalls cs + 0 + wprog hs))), evs, p, hs'. intros m L. destruct (more esc left _ m L) as (_ & M & _). exact (M _ _ _ _ E).
Qed.
Print Assumptions C103_ends.

Theorem C103_bound : forall esc left n m cs p hs x, (n <= m)%nat -> n_calls esc left n cs p hs = Some x -> n_calls esc left m cs p hs = Some x.
Proof. intros esc left n m cs p hs x L. destruct (more esc left n m L) as (_ & M & _). apply M. Qed.
Print Assumptions C103_bound.

(** A handler that only receives: pushout() as the other properties have it. *)
Theorem C103_receives : forall esc left p k ms p' hs, Forall (eq []) hs -> pk_pushout esc p = Some (k, ms, p') ->
  exists n evs hs', n_call esc left n NPushout p hs = Some (evs ++ [NDone NPushout (NCount k)], p', hs') /\
    flat_map ev_given evs = ms /\ flat_map ev_pushed evs = [].
Proof. exact receives. Qed.
Print Assumptions C103_receives.

(** Whatever the handler does, pushout() returns with an empty packer, *)
Theorem C103_empties : forall esc left n p hs evs p' hs', pk_handler p = true ->
  n_call esc left n NPushout p hs = Some (evs, p', hs') -> stored p' = [].
Proof. exact empties. Qed.
Print Assumptions C103_empties.

(** and the numbers the calls of pushout() return add up to the number of batches given by their loops. *)
Definition returned_total (evs : list nev) : nat := list_sum (map (fun e => match e with NDone _ (NCount k) => k | _ => O end) evs).
Theorem C103_counts : forall esc left n cs p hs evs p' hs', n_calls esc left n cs p hs = Some (evs, p', hs') ->
  (returned_total evs + behinds evs)%nat = List.length (flat_map ev_given evs).
Proof.
  intros esc left n cs p hs evs p' hs' H. destruct (counts esc left n) as (_ & B & _). specialize (B _ _ _ _ _ _ H).
  change (returned_total evs) with (esum count_of evs). rewrite B. clear. induction evs as [|e evs IH]; [reflexivity|].
  rewrite esum_cons. cbn [flat_map]. rewrite app_length, <- IH. unfold behinds. cbn [filter]. destruct e as [[|] m|l|l|c r]; cbn [in_loop ev_given List.length]; lia.
Qed.
Print Assumptions C103_counts.

(** Exactly what happens to the records, whatever the handler does: every record pushed, by the user or by the handler, and every copy
    that stays behind while the handler has the batch given behind the loop, is given to the handler, returned by multi_pop() or
    pop_by_json_size(), destroyed by clear(), destroyed at the end of a pushout(), or still stored; once. *)
Theorem C103_accounting : forall jp, jparser_ok jp -> forall esc left o h n cs hs evs p hs', (po_ncompact o = true -> po_sep o <> []) ->
  names_weight (flat_map ev_pushed evs ++ flat_map (ev_copies left jp) evs) <= two64 ->
  n_calls esc left n cs (pk_new o h) hs = Some (evs, p, hs') ->
  Forall (fun b => fst (recompact jp b) = true) (flat_map ev_given evs ++ flat_map ev_batches evs) /\
  Permutation (flat_map ev_pushed evs ++ flat_map (ev_copies left jp) evs)
    (flat_map (received jp) (flat_map ev_given evs) ++ flat_map (received jp) (flat_map ev_batches evs) ++ flat_map ev_singles evs ++
     flat_map ev_cleared evs ++ flat_map ev_wiped evs ++ stored p).
Proof.
  intros jp OK esc left o h n cs hs evs p hs' Ho Hw H. destruct (accounting esc left jp OK o h Ho n) as (_ & B & _).
  destruct (B _ _ _ _ _ _ (SInv_new o h) H) as (_ & G & S).
  { unfold light. change (names_weight (stored (pk_new o h))) with 0. exact Hw. }
  split.
  - rewrite Forall_forall in *. intros b Hb. apply in_app_or in Hb. apply (G b). rewrite in_flat_map. unfold all_batches.
    destruct Hb as [Hb|Hb]; apply in_flat_map in Hb; destruct Hb as (e & He & Hb); exists e; (split; [exact He|]); apply in_or_app; auto.
  - apply perm_of_sums. intros f. specialize (S f). change (msum f (stored (pk_new o h))) with 0 in S. unfold ins, outs in S.
    assert (X : msum f (PackThrowProofs.recv jp (flat_map all_batches evs)) =
      msum f (flat_map (received jp) (flat_map ev_given evs)) + msum f (flat_map (received jp) (flat_map ev_batches evs))).
    { clear. induction evs as [|e evs IH]; [reflexivity|]. cbn [flat_map]. unfold all_batches at 1. unfold PackThrowProofs.recv in *.
      rewrite !flat_map_app, !msum_app. lia. }
    rewrite !msum_app in *. lia.
Qed.
Print Assumptions C103_accounting.

(** If the handler makes no calls when it is given a batch behind the loop (it may make any when it is given one by the loop), nothing is
    lost or counted twice: every record pushed is given, returned, cleared or still stored, once. *)
Theorem C103_silent : forall jp, jparser_ok jp -> forall esc left o h n cs hs evs p hs', (po_ncompact o = true -> po_sep o <> []) ->
  names_weight (flat_map ev_pushed evs ++ flat_map (ev_copies left jp) evs) <= two64 -> silent_behind evs ->
  n_calls esc left n cs (pk_new o h) hs = Some (evs, p, hs') ->
  Permutation (flat_map ev_pushed evs)
    (flat_map (received jp) (flat_map ev_given evs) ++ flat_map (received jp) (flat_map ev_batches evs) ++ flat_map ev_singles evs ++
     flat_map ev_cleared evs ++ stored p).
Proof.
  intros jp OK esc left o h n cs hs evs p hs' Ho Hw S H. destruct (C103_accounting jp OK esc left o h n cs hs evs p hs' Ho Hw H) as (_ & P).
  destruct (silent esc left jp OK o h Ho n) as (_ & B & _). specialize (B _ _ _ _ _ _ (SInv_new o h) H).
  rewrite B in P; [|unfold light; change (names_weight (stored (pk_new o h))) with 0; exact Hw|exact S].
  apply perm_of_sums. intros f. apply (msum_perm f) in P. rewrite !msum_app in *. lia.
Qed.
Print Assumptions C103_silent.

(** If every record pushed fits into a batch of its own, the handler may do what it likes: it is never given a batch behind the loop, and every
    record pushed is given, returned, cleared or still stored, once. *)
Theorem C103_exactly_once : forall jp, jparser_ok jp -> forall esc left o h n cs hs evs p hs', (po_ncompact o = true -> po_sep o <> []) ->
  names_weight (flat_map ev_pushed evs) <= two64 -> Forall (fits esc o) (flat_map ev_pushed evs) ->
  n_calls esc left n cs (pk_new o h) hs = Some (evs, p, hs') ->
  behinds evs = O /\
  Permutation (flat_map ev_pushed evs)
    (flat_map (received jp) (flat_map ev_given evs) ++ flat_map (received jp) (flat_map ev_batches evs) ++ flat_map ev_singles evs ++
     flat_map ev_cleared evs ++ stored p).
Proof.
  intros jp OK esc left o h n cs hs evs p hs' Ho Hw F H. destruct (fitting esc left o h Ho n) as (_ & B & _).
  destruct (B _ _ _ _ _ _ (conj (PInv_new esc o h) (Forall_nil _)) H F) as (_ & N). split; [exact N|].
  destruct (no_behind left jp evs N) as (S & C). apply (C103_silent jp OK esc left o h n cs hs evs p hs' Ho); [|exact S|exact H].
  rewrite C, app_nil_r. exact Hw.
Qed.
Print Assumptions C103_exactly_once.

(** "A handler that cannot send a batch may push it back": behind the loop what it pushes back is destroyed when it returns. *)
Theorem C103_pushed_back_refuted : exists o r evs p, n_calls esc_std emptied 20 [NPush r; NPushout] (pk_new o true) [[NPush r]] = Some (evs, p, []) /\
  flat_map (received jp_std) (flat_map ev_given evs) = [r] /\ flat_map ev_pushed evs = [r; r] /\ stored p = [] /\
  flat_map ev_cleared evs = [] /\ flat_map ev_batches evs = [] /\ flat_map ev_singles evs = [] /\ In r (flat_map ev_wiped evs).
Proof.
  exists (px_o 100 false), (px "a~~b" [1; 2]). eexists _, _. split; [vm_compute; reflexivity|].
  repeat (split; [vm_compute; reflexivity|]). vm_compute. tauto.
Qed.
Print Assumptions C103_pushed_back_refuted.

(** "pushout() returns": a handler that pushes back what it is given is given it again by the same call, as often as it pushes it back. *)
Definition pb_o : popts := px_o 320 false.
Definition pb_r : push := px "a~~b" [1; 2].
Definition pb_one : packer := match pk_push esc_std pb_r (pk_new pb_o true) with Some p => p | None => pk_new pb_o true end.
Definition pb_m : mpush := match pk_multi_pop esc_std pb_one with Some (Some m, _) => m | _ => mpush0 end.
Lemma pb_push : pk_push esc_std pb_r (pk_new pb_o true) = Some pb_one.
Proof. vm_compute. reflexivity. Qed.
Lemma pb_pop : pk_multi_pop esc_std pb_one = Some (Some pb_m, pk_new pb_o true).
Proof. vm_compute. reflexivity. Qed.
Lemma pb_none : pk_multi_pop esc_std (pk_new pb_o true) = Some (None, pk_new pb_o true).
Proof. reflexivity. Qed.
Lemma pb_rec : received jp_std pb_m = [pb_r].
Proof. vm_compute. reflexivity. Qed.
Lemma pb_loop left : forall k n, (3 + k <= n)%nat -> exists evs, n_loop esc_std left n pb_one (repeat [NPush pb_r] k) = Some (S k, evs, pk_new pb_o true, []) /\
  flat_map ev_given evs = repeat pb_m (S k).
Proof.
  induction k as [|k IH]; intros n L; (destruct n as [|n]; [lia|]); rewrite n_loop_S, pb_pop; cbn [repeat hd tl]; (destruct n as [|n]; [lia|]).
  - rewrite n_calls_nil, n_loop_S, pb_none. eexists. split; reflexivity.
  - rewrite n_calls_cons. destruct n as [|n]; [lia|]. 
    change (n_call esc_std left (S n) (NPush pb_r) (pk_new pb_o true) (repeat [NPush pb_r] k)) with
      (match pk_push esc_std pb_r (pk_new pb_o true) with None => None | Some p1 => Some ([NDone (NPush pb_r) NNothing], p1, repeat [NPush pb_r] k) end).
    rewrite pb_push. rewrite n_calls_nil. destruct (IH (S (S n))) as (evs & E & G); [lia|]. rewrite E. eexists. split; [reflexivity|].
    cbn [app flat_map ev_given]. rewrite G. reflexivity.
Qed.
Theorem C103_returns_refuted : forall k, exists o r n evs p, fits esc_std o r /\
  n_calls esc_std emptied n [NPush r; NPushout] (pk_new o true) (repeat [NPush r] k) = Some (evs, p, []) /\
  flat_map (received jp_std) (flat_map ev_given evs) = repeat r (S k).
Proof.
  intros k. exists pb_o, pb_r, (6 + k)%nat. destruct (pb_loop emptied k (3 + k) ltac:(lia)) as (evs & E & G). eexists _, _.
  split; [split; vm_compute; congruence|]. split.
  - change (6 + k)%nat with (S (5 + k)). rewrite n_calls_cons. change (5 + k)%nat with (S (4 + k)).
    change (n_call esc_std emptied (S (4 + k)) (NPush pb_r) (pk_new pb_o true) (repeat [NPush pb_r] k)) with
      (match pk_push esc_std pb_r (pk_new pb_o true) with None => None | Some p1 => Some ([NDone (NPush pb_r) NNothing], p1, repeat [NPush pb_r] k) end).
    rewrite pb_push. rewrite n_calls_cons. change (4 + k)%nat with (S (3 + k)). rewrite n_call_pushout, E. cbn [pk_new pk_top].
    replace (pk_handler pb_one) with true by reflexivity. rewrite n_calls_nil. reflexivity.
  - rewrite app_nil_r. cbn [app flat_map ev_given]. rewrite flat_map_app, G. cbn [flat_map ev_given]. rewrite !app_nil_r.
    assert (X : forall j, flat_map (received jp_std) (repeat pb_m j) = repeat pb_r j).
    { induction j as [|j IHj]; [reflexivity|]. cbn [repeat flat_map]. rewrite IHj, pb_rec. reflexivity. }
    apply X.
Qed.
Print Assumptions C103_returns_refuted.

(** "A handler may call pushout()": behind the loop the call inside finds the records that were moved from, and gives the handler their
    copies, without name and values but with their counts, as often as the handler calls pushout(). *)
Definition nb_o : popts := px_o 100 false.
Definition nb_r : push := px "b" [3].
Definition nb_h : push := hollow emptied nb_r.
Definition nb_top (r : push) : packer := mk_packer nb_o true [mk_top (push_size esc_std false nb_r) r []].
Definition nb_m (r : push) : mpush := match compact (mk_mpush sep0 [] [r]) with Some (_, m) => m | None => mpush0 end.
Lemma nb_push : pk_push esc_std nb_r (pk_new nb_o true) = Some (nb_top nb_r).
Proof. vm_compute. reflexivity. Qed.
Lemma nb_out : forall k r n, r = nb_r \/ r = nb_h -> (2 * k + 3 <= n)%nat -> exists evs,
  n_call esc_std emptied n NPushout (nb_top r) (repeat [NPushout] k) = Some (evs, pk_new nb_o true, []) /\
  flat_map ev_given evs = nb_m r :: repeat (nb_m nb_h) k /\ returned_total evs = O.
Proof.
  assert (P : forall r, r = nb_r \/ r = nb_h -> pk_multi_pop esc_std (nb_top r) = Some (None, nb_top r)) by (intros r [-> | ->]; vm_compute; reflexivity).
  assert (M : forall r, r = nb_r \/ r = nb_h -> compact (mk_mpush sep0 [] [r]) = Some (true, nb_m r)) by (intros r [-> | ->]; vm_compute; reflexivity).
  induction k as [|k IH]; intros r n Hr L; (destruct n as [|[|n]]; [lia|lia|]); rewrite n_call_pushout, n_loop_S, (P r Hr);
    cbn [nb_top pk_handler pk_top map t_rec]; rewrite (M r Hr); cbn [repeat hd tl].
  - rewrite n_calls_nil. eexists. split; [reflexivity|]. split; reflexivity.
  - rewrite n_calls_cons. replace (pk_set [hollow_top emptied _] _) with (nb_top nb_h) by (destruct Hr as [-> | ->]; reflexivity).
    destruct (IH nb_h n (or_intror eq_refl)) as (evs & E & G & R); [lia|]. rewrite E. destruct n as [|n]; [lia|]. rewrite n_calls_nil.
    eexists. split; [reflexivity|]. split.
    + cbn [app flat_map ev_given]. rewrite app_nil_r, flat_map_app, G. cbn [flat_map ev_given app]. rewrite app_nil_r. reflexivity.
    + unfold returned_total in *. cbn [app map list_sum fold_right]. rewrite app_nil_r, map_app. change (fold_right Nat.add 0%nat) with list_sum. rewrite list_sum_app, R. reflexivity.
Qed.
Theorem C103_nested_refuted : forall k, exists o r n evs p, n_calls esc_std emptied n [NPush r; NPushout] (pk_new o true) (repeat [NPushout] k) = Some (evs, p, []) /\
  flat_map ev_pushed evs = [r] /\ ad_count (pu_data r) = 3 /\
  map (fun x => (pu_name x, ad_count (pu_data x), ad_data (pu_data x))) (flat_map (received jp_std) (flat_map ev_given evs)) =
    (pu_name r, 3, ad_data (pu_data r)) :: repeat ([], 3, []) k.
Proof.
  intros k. destruct (nb_out k nb_r (2 * k + 3) (or_introl eq_refl) ltac:(lia)) as (evs & E & G & R).
  exists nb_o, nb_r, (2 * k + 5)%nat. eexists _, _. split.
  - replace (2 * k + 5)%nat with (S (S (2 * k + 3))) by lia. rewrite n_calls_cons.
    change (n_call esc_std emptied (S (2 * k + 3)) (NPush nb_r) (pk_new nb_o true) (repeat [NPushout] k)) with
      (match pk_push esc_std nb_r (pk_new nb_o true) with None => None | Some p1 => Some ([NDone (NPush nb_r) NNothing], p1, repeat [NPushout] k) end).
    rewrite nb_push, n_calls_cons, E. replace (2 * k + 3)%nat with (S (2 * k + 2)) by lia. rewrite n_calls_nil. reflexivity.
  - rewrite app_nil_r. cbn [app flat_map ev_given ev_pushed n_pushed]. split; [|split; [reflexivity|]].
    + f_equal. clear - E. destruct (2 * k + 3)%nat as [|n]; [discriminate|].
      assert (Q : forall n, (forall cs p hs evs p' hs', n_calls esc_std emptied n cs p hs = Some (evs, p', hs') -> Forall (eq NPushout) cs -> Forall (Forall (eq NPushout)) hs ->
                    flat_map ev_pushed evs = [] /\ Forall (Forall (eq NPushout)) hs') /\
                  (forall p hs j evs p' hs', n_loop esc_std emptied n p hs = Some (j, evs, p', hs') -> Forall (Forall (eq NPushout)) hs ->
                    flat_map ev_pushed evs = [] /\ Forall (Forall (eq NPushout)) hs') /\
                  (forall p hs evs p' hs', n_call esc_std emptied n NPushout p hs = Some (evs, p', hs') -> Forall (Forall (eq NPushout)) hs ->
                    flat_map ev_pushed evs = [] /\ Forall (Forall (eq NPushout)) hs')).
      { clear. assert (T : forall hs : hprog, Forall (Forall (eq NPushout)) hs -> Forall (eq NPushout) (hd [] hs) /\ Forall (Forall (eq NPushout)) (tl hs)).
        { intros hs H. destruct H; split; cbn; auto. }
        induction n as [|n (A & B & C)]; [repeat split; intros; discriminate|]. split; [|split].
        - intros [|c cs] p hs evs p' hs' H F G; [injection H as <- <- <-; auto|]. rewrite n_calls_cons in H. inversion F; subst.
          destruct (n_call _ _ n NPushout p hs) as [[[e1 p1] hs1]|] eqn:E1; [|discriminate]. destruct (C _ _ _ _ _ E1 G) as (X1 & G1).
          destruct (n_calls _ _ n cs p1 hs1) as [[[e2 p2] hs2]|] eqn:E2; [|discriminate]. destruct (A _ _ _ _ _ _ E2 H3 G1) as (X2 & G2).
          injection H as <- <- <-. rewrite flat_map_app, X1, X2. auto.
        - intros p hs j evs p' hs' H G. rewrite n_loop_S in H. destruct (pk_multi_pop esc_std p) as [[[m|] p1]|]; [| |discriminate].
          2:{ injection H as <- <- <- <-. auto. }
          destruct (T _ G) as (G1 & G2). destruct (n_calls _ _ n _ p1 (tl hs)) as [[[e1 p2] hs2]|] eqn:E1; [|discriminate]. destruct (A _ _ _ _ _ _ E1 G1 G2) as (X1 & G3).
          destruct (n_loop _ _ n p2 hs2) as [[[[j2 e2] p3] hs3]|] eqn:E2; [|discriminate]. destruct (B _ _ _ _ _ _ E2 G3) as (X2 & G4).
          injection H as <- <- <- <-. cbn [flat_map ev_pushed app]. rewrite flat_map_app, X1, X2. auto.
        - intros p hs evs p' hs' H G. rewrite n_call_pushout in H. destruct (pk_handler p); [|injection H as <- <- <-; auto].
          destruct (n_loop _ _ n p hs) as [[[[j2 e2] p3] hs3]|] eqn:E2; [|discriminate]. destruct (B _ _ _ _ _ _ E2 G) as (X2 & G4).
          destruct (pk_top p3); [injection H as <- <- <-; rewrite flat_map_app, X2; auto|]. destruct (compact _) as [[b m]|]; [|discriminate].
          destruct (T _ G4) as (G1 & G2). destruct (n_calls _ _ n _ _ (tl hs3)) as [[[e1 p2] hs2]|] eqn:E1; [|discriminate]. destruct (A _ _ _ _ _ _ E1 G1 G2) as (X1 & G3).
          injection H as <- <- <-. rewrite flat_map_app, X2. cbn [flat_map ev_pushed app]. rewrite flat_map_app, X1. auto. }
      destruct (Q (S n)) as (_ & _ & QC). apply (QC _ _ _ _ _ E). apply Forall_forall. intros x Hx. apply repeat_spec in Hx. subst. repeat constructor.
    + rewrite G. cbn [flat_map]. rewrite map_app. replace (received jp_std (nb_m nb_r)) with [nb_r] by (vm_compute; reflexivity). cbn [map app].
      f_equal. assert (X : forall j, map (fun x => (pu_name x, ad_count (pu_data x), ad_data (pu_data x))) (flat_map (received jp_std) (repeat (nb_m nb_h) j)) = repeat ([], 3, []) j).
      { induction j as [|j IHj]; [reflexivity|]. cbn [repeat flat_map]. rewrite map_app, IHj. replace (received jp_std (nb_m nb_h)) with [nb_h] by (vm_compute; reflexivity). reflexivity. }
      apply X.
Qed.
Print Assumptions C103_nested_refuted.

(** The premises: handlers that push, pop, clear and call pushout(); batches given by the loop and behind it. *)
Definition nw_calls : list ncall := [NMulti [px "a~~b" [1; 2]; px "b" [3]; px "c" []]; NPushout; NMulti [px "d" [4]; px "d" []]; NPop 400; NPushout].
Definition nw_prog : hprog := [[NPush (px "e" [5]); NMultiPop]; [NPush (px "f" []); NPushout]; [NPush (px "g" [6]); NClear]].
Example C103_witness : exists evs p, n_calls esc_std emptied 60 nw_calls (pk_new (px_o 320 true) true) nw_prog = Some (evs, p, []) /\
  Forall (fits esc_std (px_o 320 true)) (flat_map ev_pushed evs) /\ List.length (flat_map ev_pushed evs) = 8%nat /\ behinds evs = O /\ silent_behind evs /\
  List.length (flat_map (received jp_std) (flat_map ev_given evs)) = 4%nat /\ List.length (flat_map (received jp_std) (flat_map ev_batches evs)) = 2%nat /\
  List.length (flat_map ev_cleared evs) = 1%nat /\ List.length (flat_map ev_singles evs) = 1%nat /\ names_weight (flat_map ev_pushed evs) <= two64.
Proof.
  eexists _, _. split; [vm_compute; reflexivity|].
  split; [cbn [flat_map ev_pushed n_pushed app]; repeat (apply Forall_cons; [split; vm_compute; congruence|]); apply Forall_nil|].
  repeat (split; [vm_compute; auto; reflexivity|]). vm_compute. congruence.
Qed.
Definition nw_big : push := px "big" (repeat 123456789 40).
Example C103_silent_witness : exists evs p, n_calls esc_std emptied 60 [NMulti [nw_big; px "b" [3]]; NPushout; NPush (px "d" [4])] (pk_new (px_o 320 true) true) [[NPush (px "e" [5])]] = Some (evs, p, []) /\
  behinds evs = 1%nat /\ silent_behind evs /\ List.length (flat_map (ev_copies emptied jp_std) evs) = 1%nat /\ List.length (stored p) = 1%nat /\
  map pu_name (flat_map (received jp_std) (flat_map ev_given evs)) = [str "b"; str "e"; str "big"] /\
  names_weight (flat_map ev_pushed evs ++ flat_map (ev_copies emptied jp_std) evs) <= two64.
Proof. eexists _, _. split; [vm_compute; reflexivity|]. repeat (split; [vm_compute; auto; reflexivity|]). vm_compute. congruence. Qed.
Example C103_receives_witness : exists k ms p', pk_pushout esc_std (match pk_pushes esc_std [nw_big; px "b" [3]; px "c" []; px "d" []] (pk_new (px_o 320 true) true) with Some p => p | None => pk_new pb_o true end) = Some (k, ms, p') /\
  k = 2%nat /\ List.length ms = 3%nat.
Proof. eexists _, _, _. split; [vm_compute; reflexivity|]. vm_compute. auto. Qed.
