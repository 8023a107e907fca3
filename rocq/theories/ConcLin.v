(** Order of effects, thread stories, object histories and late calls of the shared registry. *)
From Coq Require Import ZArith List Bool Lia Arith Ascii.
From Verif Require Import Base ModelTypes ModelReducer SpecReducer ModelSeparator SpecSeparator ModelAggregator SpecAggregator
  ModelRegistry SpecRegistry RegProofs RegFinal AggFinal ModelConc SpecConc ConcProofs ConcInv.
Import ListNotations.
Local Open Scope Z_scope.

Section Lin.
  Variable ne : nat -> list Z -> list Z.

  Lemma effects_app a b : effects (a ++ b) = effects a ++ effects b. Proof. apply flat_map_app. Qed.
  Lemma calls_app s a b : calls s (a ++ b) = calls s a ++ calls s b. Proof. apply flat_map_app. Qed.
  Lemma of_app t a b : of t (a ++ b) = of t a ++ of t b. Proof. apply filter_app. Qed.
  Lemma a_run_app ops1 : forall r ops2 os1 r1 os2 r2, a_run ne r ops1 = Ok (os1, r1) -> a_run ne r1 ops2 = Ok (os2, r2) ->
    a_run ne r (ops1 ++ ops2) = Ok (os1 ++ os2, r2).
  Proof.
    induction ops1 as [|a ops1 IH]; intros r ops2 os1 r1 os2 r2 E1 E2; cbn [a_run app] in *; [injection E1 as <- <-; auto|].
    bind_in E1 x. destruct x as [o r']. cbn [bind] in *. bind_in E1 y. destruct y as [os r'']. injection E1 as <- <-.
    rewrite (IH _ _ _ _ _ _ Ey E2). reflexivity.
  Qed.
  Lemma g_run_app ops1 : forall g ops2 os1 g1 os2 g2, g_run ne g ops1 = Ok (os1, g1) -> g_run ne g1 ops2 = Ok (os2, g2) ->
    g_run ne g (ops1 ++ ops2) = Ok (os1 ++ os2, g2).
  Proof.
    induction ops1 as [|a ops1 IH]; intros r ops2 os1 r1 os2 r2 E1 E2; cbn [g_run app] in *; [injection E1 as <- <-; auto|].
    bind_in E1 x. destruct x as [o r']. cbn [bind] in *. bind_in E1 y. destruct y as [os r'']. injection E1 as <- <-.
    rewrite (IH _ _ _ _ _ _ Ey E2). reflexivity.
  Qed.

  Definition runs (r : registry) (ev : list event) (r' : registry) : Prop :=
    a_run ne r (map fst (effects ev)) = Ok (map snd (effects ev), r').
  Lemma runs_nil r : runs r [] r. Proof. reflexivity. Qed.
  Lemma runs_app r ev1 r1 ev2 r2 : runs r ev1 r1 -> runs r1 ev2 r2 -> runs r (ev1 ++ ev2) r2.
  Proof. unfold runs. intros A B. rewrite effects_app, !map_app. eapply a_run_app; eauto. Qed.
  Lemma runs_one r t a o r' : a_do ne a r = Ok (o, r') -> runs r [ELin t a o] r'.
  Proof. unfold runs. simpl. intros ->. reflexivity. Qed.
  Lemma runs_skip r e ev r' : match e with ELin _ _ _ => False | _ => True end -> runs r ev r' -> runs r (e :: ev) r'.
  Proof. destruct e; simpl; try contradiction; auto. Qed.
  Lemma runs_cons r t a o r1 ev r' : a_do ne a r = Ok (o, r1) -> runs r1 ev r' -> runs r (ELin t a o :: ev) r'.
  Proof. intros A B. apply (runs_app _ [_] r1); auto. now apply runs_one. Qed.

  Lemma runs_call c s g o reg c' t a f : k_call ne s g c = Ok (o, reg, c') ->
    (forall pos g0 g1, at_pos (k_reg c) pos s g0 -> g_call ne g g0 = Ok (o, g1) -> a_do ne a (k_reg c) = Ok (f, rg_set pos (Some (s, g1)) (k_reg c))) ->
    runs (k_reg c) (lin reg t s g o a f) (k_reg c').
  Proof.
    intros E H. destruct (call_shape _ _ _ _ _ _ _ E) as (g0 & g1 & EX & EC & [(-> & pos & A & E1 & E2)|(-> & NA & E1 & EM & E2)]); rewrite E1.
    - unfold lin. apply runs_skip; [exact I|]. apply runs_one. eauto.
    - unfold lin. apply runs_skip; [exact I|]. apply runs_skip; [exact I|]. apply runs_nil.
  Qed.
  Lemma call_do r id s pos g0 g o g1 : at_id r id s -> at_pos r pos s g0 -> g_call ne g g0 = Ok (o, g1) ->
    a_do ne (ADo (RgCall id g)) r = Ok (RCall o, rg_set pos (Some (s, g1)) r).
  Proof. intros A B C. cbn [a_do rg_do]. unfold rg_call. rewrite (get_at _ _ _ _ _ A B). cbn [bind]. rewrite C. reflexivity. Qed.
  Lemma push_do c p x c1 c2 pos g0 o g1 : ROk (k_reg c) -> pu_id (rp_pu p) = true -> at_pos (k_reg c) pos (rp_obj p) g0 ->
    g_call ne (GoPush x (pu_handler (rp_pu p)) c1 c2) g0 = Ok (o, g1) ->
    a_do ne (push_act c p x c1 c2) (k_reg c) = Ok (RRecs (out_handler o), rg_set pos (Some (rp_obj p, g1)) (k_reg c)).
  Proof.
    intros R PI A C. unfold push_act, cleared, k_find. rewrite (find_at _ _ _ _ R A). destruct (g_id g0) eqn:ID; cbn [negb a_do rg_do].
    - unfold rg_call_pusher. rewrite (find_at _ _ _ _ R A). unfold g_call_pusher, pusher_live.
      rewrite PI, ID. cbn [andb bind]. rewrite C. reflexivity.
    - rewrite (find_at _ _ _ _ R A). rewrite C. reflexivity.
  Qed.

  Lemma step_runs c t k p ev r' dead' p' : KInv c -> nth_error (k_thr c) t = Some p ->
    Kstep ne t c k p ev r' dead' p' -> runs (k_reg c) ev r'.
  Proof.
    intros K ET S. pose proof (ki_thr _ K _ _ ET) as PO.
    destruct S; subst.
    - apply runs_nil.
    - apply runs_skip; [exact I|]. eapply runs_cons; [exact H2|]. apply runs_skip; [exact I|apply runs_nil].
    - apply runs_skip; [exact I|]. eapply runs_cons; [exact H2|]. apply runs_skip; [exact I|apply runs_nil].
    - apply runs_skip; [exact I|apply runs_nil].
    - apply runs_skip; [exact I|]. eapply runs_one. cbn [a_do rg_do]. rewrite H1. reflexivity.
    - apply runs_skip; [exact I|]. eapply runs_one. cbn [a_do rg_do]. rewrite H1. reflexivity.
    - apply runs_skip; [exact I|]. eapply runs_cons; [exact H0|]. apply runs_skip; [exact I|apply runs_nil].
    - apply runs_skip; [exact I|apply runs_nil].
    - apply runs_skip; [exact I|apply runs_nil].
    - apply runs_skip; [exact I|]. eapply runs_one. reflexivity.
    - destruct PO as (P1 & P2 & P3). eapply runs_call; eauto. intros. eapply call_do; eauto.
    - apply runs_skip; [exact I|apply runs_nil].
    - apply runs_nil.
    - eapply runs_cons; [|apply runs_skip; [exact I|apply runs_nil]]. cbn [a_do]. now apply call_none.
    - eapply runs_cons; [|apply runs_skip; [exact I|apply runs_nil]]. cbn [a_do rg_do]. rewrite H. reflexivity.
    - destruct PO as (P1 & P2). eapply runs_call; eauto. intros. eapply push_do; eauto. apply K.
    - destruct PO as (P1 & P2). eapply runs_call; eauto. rewrite <- H0. intros. eapply push_do; eauto. apply K.
    - destruct PO as (P1 & P2). eapply runs_call; eauto. intros. eapply push_do; eauto. apply K.
    - eapply runs_cons; [|apply runs_skip; [exact I|apply runs_nil]]. reflexivity.
    - apply runs_skip; [exact I|apply runs_nil].
    - apply runs_nil.
    - destruct (get_at_id _ _ _ _ _ (ki_ok _ K) H) as (A & B). eapply runs_call; eauto. intros. eapply call_do; eauto.
    - destruct PO as (P1 & P2). eapply runs_app; [eapply runs_call; eauto; intros; eapply call_do; eauto|].
      destruct (out_ptr o) as [a|]; [|apply runs_nil]. apply runs_one. cbn [a_do rg_do]. do 3 f_equal.
      destruct (call_shape _ _ _ _ _ _ _ H) as (g0 & g1 & EX & EC & [(-> & pos & A & E1 & E2)|(-> & NA & E1 & EM & E2)]); rewrite E1; reflexivity.
    - apply runs_skip; [exact I|apply runs_nil].
    - apply runs_nil.
    - eapply runs_call; eauto. intros pos g1 g2 A B. cbn [a_do]. rewrite (find_at _ _ _ _ (ki_ok _ K) A). cbn [g_call] in B. now injection B as _ <-.
  Qed.

  (** * Thread stories *)
  Section Thread.
  Variable t : nat.
  Inductive closed : list event -> Prop :=
  | ClNil : closed []
  | ClSnoc l k body o : closed l -> call_ok t k body o -> closed (l ++ EInv t k :: body ++ [ERet t o]).
  Lemma story_app_closed a b : closed a -> story t b -> story t (a ++ b).
  Proof.
    intros C. revert b. induction C as [|l k body o C IH CO]; intros b S; auto.
    rewrite <- app_assoc. apply IH. simpl. rewrite <- app_assoc. apply StCall; auto.
  Qed.
  (** The events of a call the thread is in the middle of. *)
  Definition current (p : pc) (cur : list event) : Prop :=
    match p with
    | PIdle => cur = []
    | PGot id s g => cur = [EInv t (KOp (RgCall id g))] \/
        exists e n d c1 c2, g = GoAdd (SmRed d) c1 c2 /\
          cur = [EInv t (KOp (RgAddName e n d c1 c2)); ELin t (ADo (RgCreate e n (ri_ts (rd_info d)))) (RId id)]
    | PCreated id d c1 c2 => exists e n,
          cur = [EInv t (KOp (RgAddName e n d c1 c2)); ELin t (ADo (RgCreate e n (ri_ts (rd_info d)))) (RId id)]
    | PMade id h => exists e n now, cur = [EInv t (KOp (RgPusherName e n h now)); ELin t (ADo (RgCreate e n now)) (RId id)]
    | PLocked p x c1 c2 dest => cur = [EInv t (match dest with None => KOp (RgPush p x c1 c2) | Some id => KMeter p id x c1 c2 end)]
    | PDeliver _ id recs => exists p x c1 c2 ev, pushed t p x c1 c2 (RRecs recs) ev /\ cur = [EInv t (KMeter p id x c1 c2); ev]
    | PLeave _ _ o => exists k body, call_ok t k body o /\ cur = EInv t k :: body
    | PPop f clk is acc => exists body, visits t f body acc /\ cur = EInv t (KOp (RgPopAll f clk)) :: body
    | PPopped f clk is acc id s => exists body c o1, visits t f body acc /\
        cur = EInv t (KOp (RgPopAll f clk)) :: body ++ [ELin t (ADo (RgCall id (GoSeparate 0 false f c))) o1]
    | PEnable v is => exists ss, cur = EInv t (KOp (RgEnable v)) :: ELin t (AFlag v) RUnit :: map (fun s => ELin t (AEnableOne s v) RUnit) ss
    end.
  Lemma took_lin (reg : bool) a o : took t a o (if reg then ELin t a o else ELate t a o).
  Proof. destruct reg; [left|right]; auto. Qed.
  Lemma of_lin reg s g o a r : of t (lin reg t s g o a r) = [if reg then ELin t a r else ELate t a r].
  Proof. unfold of, lin. simpl. destruct reg; now rewrite Nat.eqb_refl. Qed.

  Lemma visits_took f body acc : visits t f body acc -> Forall (fun e => exists a o, took t a o e) body.
  Proof. induction 1; auto; apply Forall_app; split; auto; repeat constructor; unfold took; eauto. Qed.
  Lemma pushed_act (reg : bool) c p x c1 c2 o : pushed t p x c1 c2 o (if reg then ELin t (push_act c p x c1 c2) o else ELate t (push_act c p x c1 c2) o).
  Proof. unfold push_act. destruct (cleared _ _); [right|left]; apply took_lin. Qed.
  Lemma call_ok_took k body o : call_ok t k body o -> Forall (fun e => exists a o, took t a o e) body.
  Proof.
    assert (B : forall a o, exists a' o', took t a' o' (ELin t a o)) by (intros; do 2 eexists; left; eauto).
    assert (D : forall p x c1 c2 o e, pushed t p x c1 c2 o e -> exists a o', took t a o' e) by (intros ? ? ? ? ? ? [H|H]; eauto).
    destruct 1; repeat constructor; eauto.
    - eapply visits_took; eauto.
    - apply Forall_map. apply Forall_forall. intros. apply B.
  Qed.
  Lemma current_story p cur : current p cur -> story t cur.
  Proof.
    assert (A : forall a o e, took t a o e -> exists a o, took t a o e) by eauto.
    assert (B : forall a o, exists a' o', took t a' o' (ELin t a o)) by (intros; do 2 eexists; left; eauto).
    destruct p; simpl.
    - intros ->. constructor.
    - intros [->|(e & n & d & c1 & c2 & _ & ->)]; constructor; auto.
    - intros (e & n & ->). constructor; auto.
    - intros (e & n & now & ->). constructor; auto.
    - intros ->. constructor; auto.
    - intros (p & x & c1 & c2 & ev & [T|T] & ->); constructor; constructor; eauto.
    - intros (k & body & T & ->). constructor. eapply call_ok_took; eauto.
    - intros (body & V & ->). constructor. eapply visits_took; eauto.
    - intros (body & c & o1 & V & ->). constructor. apply Forall_app. split; [eapply visits_took; eauto|]. auto.
    - intros (ss & ->). constructor. constructor; auto. apply Forall_map. apply Forall_forall. intros. apply B.
  Qed.
  End Thread.

  Definition told (t : nat) (evs : list event) (p : pc) : Prop :=
    exists l cur, of t evs = l ++ cur /\ closed t l /\ current t p cur.
  Lemma told_same t evs p p' ev cur' : told t evs p -> (forall cur, current t p cur -> current t p' (cur ++ cur')) ->
    of t ev = cur' -> told t (evs ++ ev) p'.
  Proof.
    intros (l & cur & E & C & CU) H O. exists l, (cur ++ cur'). rewrite of_app, E, O, app_assoc. auto.
  Qed.
  Lemma told_end t evs p ev body o : told t evs p -> of t ev = body ++ [ERet t o] ->
    (forall cur, current t p cur -> exists k b, cur ++ body = EInv t k :: b /\ call_ok t k b o) -> told t (evs ++ ev) PIdle.
  Proof.
    intros (l & cur & E & C & CU) O H. destruct (H _ CU) as (k & b & EB & CO).
    exists (l ++ EInv t k :: b ++ [ERet t o]), []. rewrite of_app, E, O, app_nil_r. split; [|split; [constructor; auto|reflexivity]].
    rewrite app_comm_cons, <- EB. now rewrite <- !app_assoc.
  Qed.

  Lemma story_step t c k p ev r' dead' p' evs : KInv c -> nth_error (k_thr c) t = Some p ->
    Kstep ne t c k p ev r' dead' p' -> told t evs p -> told t (evs ++ ev) p'.
  Proof.
    intros K ET S T. pose proof (ki_thr _ K _ _ ET) as PO.
    assert (RT : (t =? t)%nat = true) by apply Nat.eqb_refl.
    assert (REG : forall s g o reg c', k_call ne s g c = Ok (o, reg, c') -> (exists pos g0, at_pos (k_reg c) pos s g0) -> reg = true).
    { intros s g o reg c' E (pos & g0 & A). destruct (call_shape _ _ _ _ _ _ _ E) as (x0 & x1 & EX & EC & [(-> & _)|(-> & NA & _)]); auto. exfalso. eapply NA; eauto. }
    destruct S; subst.
    - rewrite app_nil_r. auto.
    - eapply (told_end t evs _ _ [EInv t (KOp op); ELin t (ADo op) o]); [exact T|simpl; now rewrite RT|].
      intros cur ->. do 2 eexists. split; [reflexivity|]. constructor; auto. left; auto.
    - eapply (told_end t evs _ _ [EInv t (KOp (RgDel n)); ELin t (ADo (RgDel n)) o]); [exact T|simpl; now rewrite RT|].
      intros cur ->. do 2 eexists. split; [reflexivity|]. constructor; [exact I|left; auto].
    - eapply told_same; [exact T| |simpl; rewrite RT; reflexivity]. intros cur ->. simpl. auto.
    - eapply told_same; [exact T| |simpl; rewrite RT; reflexivity]. intros cur ->. simpl. eauto.
    - eapply told_same; [exact T| |simpl; rewrite RT; reflexivity]. intros cur ->. simpl. eauto.
    - destruct dest as [id|].
      + eapply (told_end t evs _ _ [EInv t (KMeter p id x c1 c2); ELin t (ADo (RgPush p x c1 c2)) (RRecs [])]); [exact T|simpl; now rewrite RT|].
        intros cur ->. do 2 eexists. split; [reflexivity|]. constructor. left; left; auto.
      + eapply (told_end t evs _ _ [EInv t (KOp (RgPush p x c1 c2)); ELin t (ADo (RgPush p x c1 c2)) (RRecs [])]); [exact T|simpl; now rewrite RT|].
        intros cur ->. do 2 eexists. split; [reflexivity|]. apply CkSingle; [exact I|left; auto].
    - eapply told_same; [exact T| |simpl; rewrite RT; reflexivity]. intros cur ->. simpl. auto.
    - eapply told_same; [exact T| |simpl; rewrite RT; reflexivity]. intros cur ->. simpl. exists []. split; auto. constructor.
    - eapply told_same; [exact T| |simpl; rewrite RT; reflexivity]. intros cur ->. simpl. exists []. auto.
    - eapply told_same; [exact T| |apply of_lin].
      intros cur [->|(e & n & d & c1 & c2 & -> & ->)]; simpl; do 2 eexists; (split; [|reflexivity]).
      + constructor; [exact I|apply took_lin].
      + constructor. apply took_lin.
    - eapply (told_end t evs _ _ []); [exact T|simpl; now rewrite RT|].
      intros cur (k0 & body & CO & ->). exists k0, body. rewrite app_nil_r. auto.
    - eapply told_same; [exact T| |reflexivity]. intros cur (e & n & ->). simpl. right. do 5 eexists. eauto.
    - eapply (told_end t evs _ _ [_]); [exact T|simpl; now rewrite RT|].
      intros cur (e & n & ->). do 2 eexists. split; [reflexivity|]. constructor. left. auto.
    - eapply (told_end t evs _ _ [_]); [exact T|simpl; now rewrite RT|].
      intros cur (e & n & now & ->). do 2 eexists. split; [reflexivity|]. constructor.
    - eapply told_same; [exact T| |apply of_lin]. intros cur ->. simpl. do 2 eexists. split; [|reflexivity].
      destruct (pushed_act t reg c p x c1 c2 (RRecs (out_handler o))) as [PA|PA]; [apply CkSingle; [exact I|exact PA]|apply CkHeld; exact PA].
    - eapply told_same; [exact T| |apply of_lin]. intros cur ->. simpl. do 2 eexists. split; [|reflexivity]. constructor. apply pushed_act.
    - eapply told_same; [exact T| |apply of_lin]. intros cur ->. simpl. do 5 eexists. split; [apply pushed_act|reflexivity].
    - eapply told_same; [exact T| |simpl; rewrite RT; reflexivity].
      intros cur (p & x & c1 & c2 & ev & TK & ->). do 2 eexists. split; [|reflexivity].
      assert (WD : w_deliver id recs (k_reg c) = match rg_get_name id (k_reg c) with [] => [] | _ => map (fun a => (rg_get_name id (k_reg c), a)) recs end)
        by (unfold w_deliver; destruct (rg_get_name id (k_reg c)); reflexivity).
      rewrite WD. apply CkMeter. auto.
    - eapply (told_end t evs _ _ []); [exact T|simpl; now rewrite RT|].
      intros cur (body & V & ->). exists (KOp (RgPopAll f clk)), body. split; [now rewrite app_nil_r|]. constructor. auto.
    - eapply told_same; [exact T| |reflexivity]. intros cur HC. rewrite app_nil_r. exact HC.
    - destruct (get_at_id _ _ _ _ _ (ki_ok _ K) H) as (A & B). assert (reg = true) by (eapply REG; eauto). subst reg.
      eapply told_same; [exact T| |apply of_lin]. intros cur (body & V & ->). simpl. exists body. do 2 eexists. split; [auto|reflexivity].
    - destruct PO as (P1 & P2). assert (reg = true) by (eapply REG; eauto). subst reg.
      destruct (out_ptr o) as [a|] eqn:EO.
      + eapply told_same; [exact T| |rewrite of_app, of_lin; simpl; rewrite RT; reflexivity].
        intros cur (body & cc & o1 & V & ->). simpl. eexists. split; [eapply VSome; eauto|]. rewrite <- app_assoc. reflexivity.
      + eapply told_same; [exact T| |rewrite of_app, of_lin; simpl; reflexivity].
        intros cur (body & cc & o1 & V & ->). simpl. eexists. rewrite app_nil_r. split; [eapply VNone; eauto|]. rewrite <- app_assoc. reflexivity.
    - eapply (told_end t evs _ _ []); [exact T|simpl; now rewrite RT|].
      intros cur (ss & ->). do 2 eexists. split; [rewrite app_nil_r; reflexivity|]. constructor.
    - eapply told_same; [exact T| |reflexivity]. intros cur HC. rewrite app_nil_r. exact HC.
    - assert (reg = true) by (eapply REG; eauto). subst reg.
      eapply told_same; [exact T| |apply of_lin]. intros cur (ss & ->). simpl. exists (ss ++ [s]). now rewrite map_app.
  Qed.
  Lemma story_other t t' c k p ev r' dead' p' : t <> t' -> Kstep ne t c k p ev r' dead' p' -> of t' ev = [].
  Proof.
    intros N S. assert (NT : (t =? t')%nat = false) by (now apply Nat.eqb_neq).
    destruct S; subst; rewrite ?of_app; unfold lin; simpl; rewrite ?NT; auto; try (destruct reg; simpl; now rewrite ?NT).
    destruct reg; simpl; rewrite ?NT; simpl; destruct (out_ptr o); simpl; now rewrite ?NT.
  Qed.

  (** * Object histories *)
  Definition born (o : rgopts) (s : nat) (evs : list event) (g : agg) : Prop :=
    exists e now g00 pre pouts, created_in e now evs /\ agg_new (rgo_agg o) (ce_clock e) (ce_rnd e) now = Ok g00 /\ creation e pre /\
      g_run ne g00 (pre ++ map fst (calls s evs)) = Ok (pouts ++ map snd (calls s evs), g).
  Record HInv (o : rgopts) (evs : list event) (c : conc) : Prop := {
    hi_opt : rg_opt (k_reg c) = rgo_agg o;
    hi_new : forall s, (rg_next (k_reg c) <= s)%nat -> calls s evs = [];
    hi_obj : forall s g, exists_obj c s g -> born o s evs g }.

  Lemma calls_no s ev : Forall (fun e => match e with EObj _ _ _ _ => False | _ => True end) ev -> calls s ev = [].
  Proof. induction 1 as [|e ev H _ IH]; auto. destruct e; simpl in *; auto. contradiction. Qed.
  Lemma calls_lin s reg t s' g o a r : calls s (lin reg t s' g o a r) = if (s' =? s)%nat then [(g, o)] else [].
  Proof. unfold calls, lin. simpl. destruct reg; simpl; now rewrite app_nil_r. Qed.
  Lemma exists_obj_fun c s g1 g2 : KInv c -> exists_obj c s g1 -> exists_obj c s g2 -> g1 = g2.
  Proof.
    intros K [[p1 A]|A] [[p2 B]|B].
    - assert (p1 = p2) by (eapply (ro_uniq _ (ki_ok _ K)); eauto). subst. congruence.
    - exfalso. eapply (ki_dead _ K); eauto.
    - exfalso. eapply (ki_dead _ K); eauto.
    - congruence.
  Qed.
  Lemma obj_lt c s g : KInv c -> exists_obj c s g -> (s < rg_next (k_reg c))%nat.
  Proof. intros K [[p A]|A]; [eapply ro_lt; [apply K|exact A]|]. apply (ki_dead _ K _ _ A). Qed.


  Lemma created_app e now evs ev : created_in e now evs -> created_in e now (evs ++ ev).
  Proof. intros (t & n & x & H). exists t, n, x. apply in_or_app. auto. Qed.
  Lemma hist_keep o evs ev c c' : HInv o evs c -> (forall s, calls s ev = []) -> rg_opt (k_reg c') = rg_opt (k_reg c) ->
    (rg_next (k_reg c) <= rg_next (k_reg c'))%nat -> (forall s g, exists_obj c' s g -> exists_obj c s g) -> HInv o (evs ++ ev) c'.
  Proof.
    intros [H1 H2 H3] NC OP NX EX. constructor.
    - congruence.
    - intros s L. rewrite calls_app, NC, H2 by lia. reflexivity.
    - intros s g E. destruct (H3 _ _ (EX _ _ E)) as (e & now & g00 & pre & po & Z & A & B & C).
      exists e, now, g00, pre, po. rewrite calls_app, NC, app_nil_r. split; [apply created_app; auto|auto].
  Qed.
  Lemma hist_call o evs ev c c' s g out reg : KInv c -> HInv o evs c -> k_call ne s g c = Ok (out, reg, c') ->
    (forall x, calls x ev = if (s =? x)%nat then [(g, out)] else []) -> HInv o (evs ++ ev) c'.
  Proof.
    intros K [H1 H2 H3] E NC. destruct (call_shape _ _ _ _ _ _ _ E) as (g0 & g1 & EX & EC & D).
    assert (OT : rg_opt (k_reg c') = rg_opt (k_reg c) /\ rg_next (k_reg c') = rg_next (k_reg c)).
    { destruct D as [(_ & pos & A & E1 & E2)|(_ & NA & E1 & EM & E2)]; rewrite E1; auto. }
    destruct OT as [O1 O2].
    assert (OBJ : forall x gx, exists_obj c' x gx -> (x = s /\ gx = g1) \/ (x <> s /\ exists_obj c x gx)).
    { intros x gx EX'. destruct D as [(_ & pos & A & E1 & E2)|(_ & NA & E1 & EM & E2)].
      - destruct EX' as [[p X]|X].
        + rewrite E1 in X. unfold rg_set in X. cbn [rg_arr] in X. destruct (Nat.eq_dec pos p) as [->|N].
          * rewrite set_nth_same in X by (now apply nth_error_lt in A). injection X as <- <-. auto.
          * rewrite set_nth_other in X by auto. right. split; [|left; eauto]. intros ->. apply N. eapply (ro_uniq _ (ki_ok _ K)); eauto.
        + rewrite E2 in X. right. split; [|right; auto]. intros ->. eapply (ki_dead _ K); eauto.
      - destruct EX' as [[p X]|X].
        + rewrite E1 in X. right. split; [|left; eauto]. intros ->. eapply NA; eauto.
        + rewrite E2 in X. cbn [m_find] in X. destruct (Nat.eqb_spec x s) as [->|N]; [injection X as <-; auto|].
          rewrite nat_find_erase in X. destruct (Nat.eqb_spec s x); [congruence|]. right. split; auto. right. auto. }
    constructor.
    - congruence.
    - intros x L. rewrite O2 in L. rewrite calls_app, NC, H2 by auto. pose proof (obj_lt _ _ _ K EX).
      destruct (Nat.eqb_spec s x); [lia|reflexivity].
    - intros x gx EX'. destruct (OBJ _ _ EX') as [(-> & ->)|(N & EX2)].
      + destruct (H3 _ _ EX) as (e & now & g00 & pre & po & Z & A & B & C).
        exists e, now, g00, pre, po. split; [apply created_app; auto|]. split; auto. split; auto. rewrite calls_app, NC, Nat.eqb_refl, !map_app, !app_assoc.
        eapply g_run_app; eauto. simpl. rewrite EC. reflexivity.
      + destruct (H3 _ _ EX2) as (e & now & g00 & pre & po & Z & A & B & C).
        exists e, now, g00, pre, po. split; [apply created_app; auto|]. split; auto. split; auto. rewrite calls_app, NC.
        destruct (Nat.eqb_spec s x); [congruence|]. rewrite app_nil_r. auto.
  Qed.
  Lemma hist_create o evs ev c r' thr' e n now id : KInv c -> HInv o evs c -> (forall s, calls s ev = []) -> created_in e now ev -> rg_create ne e n now (k_reg c) = Ok (id, r') ->
    HInv o (evs ++ ev) (mk_conc r' (k_dead c) thr').
  Proof.
    intros K H NC CI E. destruct (create_shape _ _ _ _ _ _ _ E) as (A & B & OP). destruct B as [[B1 B2]|(pos & g00 & pre & os & g1 & B1 & B2 & B3 & B4 & B5 & B6)].
    - eapply hist_keep; eauto; cbn [k_reg]; [lia|]. intros s g [[p X]|X]; [left; exists p; cbn [k_reg] in X; rewrite B1 in X; auto|right; auto].
    - destruct H as [H1 H2 H3]. constructor; cbn [k_reg].
      + congruence.
      + intros s L. rewrite calls_app, NC, H2 by lia. reflexivity.
      + intros s g EX. destruct (Nat.eq_dec s (rg_next (k_reg c))) as [->|N].
        * assert (g = g1).
          { destruct EX as [[p X]|X]; cbn [k_reg k_dead] in X.
            - rewrite B1 in X. destruct (Nat.eq_dec pos p) as [->|NP].
              + rewrite set_nth_same in X by (pose proof (resize_length (S p) (rg_arr (k_reg c))); lia). now injection X as <-.
              + rewrite set_nth_other, resize_some in X by auto. apply (ro_lt _ (ki_ok _ K)) in X. lia.
            - apply (ki_dead _ K) in X. lia. }
          subst g. exists e, now, g00, pre, os. rewrite <- H1. split; [destruct CI as (t0 & n0 & x0 & CI); exists t0, n0, x0; apply in_or_app; auto|]. split; auto. split; auto.
          rewrite calls_app, NC, H2 by lia. simpl. rewrite !app_nil_r. auto.
        * assert (EX' : exists_obj c s g).
          { destruct EX as [[p X]|X]; cbn [k_reg k_dead] in X; [|right; auto]. left. exists p. rewrite B1 in X. destruct (Nat.eq_dec pos p) as [->|NP].
            - rewrite set_nth_same in X by (pose proof (resize_length (S p) (rg_arr (k_reg c))); lia). now injection X as <-.
            - now rewrite set_nth_other, resize_some in X by auto. }
          destruct (H3 _ _ EX') as (e' & now' & g00' & pre' & po & Q0 & Q1 & Q2 & Q3).
          exists e', now', g00', pre', po. rewrite calls_app, NC, app_nil_r. split; [apply created_app; auto|auto].
  Qed.

  Lemma exists_obj_eq c c' s g : k_reg c' = k_reg c -> k_dead c' = k_dead c -> exists_obj c' s g -> exists_obj c s g.
  Proof. unfold exists_obj. intros -> ->. auto. Qed.
  Lemma HInv_eq o evs c c' : k_reg c' = k_reg c -> k_dead c' = k_dead c -> HInv o evs c -> HInv o evs c'.
  Proof. intros E1 E2 [H1 H2 H3]. constructor; rewrite ?E1; auto. intros s g X. apply H3. eapply exists_obj_eq; eauto. Qed.

  Lemma hist_step o evs c t k p ev p' c' : KInv c -> nth_error (k_thr c) t = Some p ->
    Kstep ne t c k p ev (k_reg c') (k_dead c') p' -> HInv o evs c -> HInv o (evs ++ ev) c'.
  Proof.
    intros K ET S H.
    assert (GEN : forall r' dead', Kstep ne t c k p ev r' dead' p' -> HInv o (evs ++ ev) (mk_conc r' dead' (k_thr c))).
    { clear S. intros r' dead' S.
      assert (SAME : (forall s, calls s ev = []) -> HInv o (evs ++ ev) (mk_conc (k_reg c) (k_dead c) (k_thr c))).
      { intros NC. eapply hist_keep; eauto. }
      assert (CALL : forall s g out reg c1, k_call ne s g c = Ok (out, reg, c1) ->
        (forall x, calls x ev = if (s =? x)%nat then [(g, out)] else []) -> HInv o (evs ++ ev) (mk_conc (k_reg c1) (k_dead c1) (k_thr c))).
      { intros. eapply HInv_eq; [| |eapply hist_call; eauto]; reflexivity. }
      destruct S; subst; try (apply SAME; reflexivity);
        try (eapply CALL; [eassumption|intros y; rewrite ?calls_app, calls_lin; simpl; now rewrite ?app_nil_r]).
      - destruct op; try contradiction.
        + cbn [rg_do] in H3. bind_in H3 idr. destruct idr as [id r1]. injection H3 as <- <-. eapply hist_create; eauto. eexists _, _, _. simpl. eauto.
        + rewrite (call_none _ _ _ _ H2) in H3. injection H3 as <- <-. apply SAME. reflexivity.
        + cbn [rg_do] in H3. injection H3 as <- <-. eapply hist_keep; eauto.
        + cbn [rg_do] in H3. injection H3 as <- <-. apply SAME. reflexivity.
        + cbn [rg_do] in H3. bind_in H3 q. injection H3 as <- <-. apply SAME. reflexivity.
      - cbn [rg_do] in H3. bind_in H3 br. destruct br as [b r1]. injection H3 as <- <-.
        destruct (del_shape ne _ _ _ _ _ Ebr H2) as (D1 & D2 & D3 & D4). eapply hist_keep; eauto; cbn [k_reg]; [lia|].
        intros s g [[q X]|X].
        + left. exists q. cbn [k_reg] in X. apply (D4 q s g) in X. apply X.
        + cbn [k_dead] in X. destruct p as [[q [s0 g0]]|]; [|right; auto]. cbn [m_find] in X. destruct (Nat.eqb_spec s s0) as [->|N]; [|right; auto].
          injection X as <-. left. exists q. eapply get_in; eauto.
      - eapply hist_create; eauto. eexists _, _, _. simpl. eauto.
      - eapply hist_create; eauto. eexists _, _, _. simpl. eauto.
      - eapply hist_keep; eauto.
      - destruct (out_ptr o0); eapply CALL; [eassumption|intros y; rewrite ?calls_app, calls_lin; simpl; now rewrite ?app_nil_r|eassumption|intros y; rewrite ?calls_app, calls_lin; simpl; now rewrite ?app_nil_r]. }
    eapply HInv_eq; [| |apply (GEN _ _ S)]; reflexivity.
  Qed.

  (** * Late calls *)
  Definition opened (t : nat) (evs : list event) (P : list event -> list event -> Prop) : Prop :=
    exists pre k mid, evs = pre ++ EInv t k :: mid /\ Forall (fun e => match e with EInv t' _ => t' <> t | _ => True end) mid /\ P pre mid.
  Definition regd (c : conc) (s : nat) : Prop := exists pos g, at_pos (k_reg c) pos s g.
  Definition deleted (evs : list event) : Prop := existsb is_del evs = true.
  Definition kept (t s : nat) (pre : list event) : Prop := deleted pre /\ exists t' k', t' <> t /\ inside t' k' pre /\ may_hold s k'.
  Definition LPc (t : nat) (evs : list event) (c : conc) (p : pc) : Prop :=
    match p with
    | PIdle => True
    | PGot id s _ => opened t evs (fun _ mid => regd c s \/ deleted mid)
    | PLocked p _ _ _ _ => opened t evs (fun pre mid => regd c (rp_obj p) \/ deleted mid \/ kept t (rp_obj p) pre)
    | _ => opened t evs (fun _ _ => True)
    end.
  (** The call a thread is in. *)
  Definition from (p : pc) (k : kop) : Prop :=
    match p with
    | PGot _ _ _ => match k with KOp (RgCall _ _) | KOp (RgAddName _ _ _ _ _) => True | _ => False end
    | PCreated _ _ _ _ => match k with KOp (RgAddName _ _ _ _ _) => True | _ => False end
    | PLocked p x c1 c2 dest => k = match dest with None => KOp (RgPush p x c1 c2) | Some id => KMeter p id x c1 c2 end
    | PDeliver s id _ => match k with KMeter p id' _ _ _ => rp_obj p = s /\ id' = id | _ => False end
    | PLeave true s _ => match k with KOp (RgPush p _ _ _) | KMeter p _ _ _ _ => rp_obj p = s | _ => False end
    | PLeave false _ _ => match k with KOp (RgCall _ _) | KOp (RgAddName _ _ _ _ _) => True | _ => False end
    | PPop _ _ _ _ | PPopped _ _ _ _ _ _ => match k with KOp (RgPopAll _ _) => True | _ => False end
    | PEnable _ _ => match k with KOp (RgEnable _) => True | _ => False end
    | PMade _ _ => match k with KOp (RgPusherName _ _ _ _) => True | _ => False end
    | PIdle => True
    end.
  Record LInv (evs : list event) (c : conc) : Prop := {
    li_dead : forall s g, m_find Nat.eqb s (k_dead c) = Some g -> deleted evs;
    li_thr : forall t p, nth_error (k_thr c) t = Some p -> LPc t evs c p;
    li_in : forall t p, nth_error (k_thr c) t = Some p -> p <> PIdle -> exists k, inside t k evs /\ from p k }.
  Lemma deleted_app a b : deleted (a ++ b) <-> deleted a \/ deleted b.
  Proof. unfold deleted. rewrite existsb_app, orb_true_iff. tauto. Qed.
  Lemma opened_mono t evs ev (P Q : list event -> list event -> Prop) : Forall (fun e => match e with EInv t' _ => t' <> t | _ => True end) ev ->
    (forall pre mid, P pre mid -> Q pre (mid ++ ev)) -> opened t evs P -> opened t (evs ++ ev) Q.
  Proof.
    intros F H (pre & k & mid & -> & N & HP). exists pre, k, (mid ++ ev). rewrite <- app_assoc. split; auto. split; auto. apply Forall_app. auto.
  Qed.
  Lemma step_keeps t c k p ev r' dead' p' : KInv c -> nth_error (k_thr c) t = Some p ->
    Kstep ne t c k p ev r' dead' p' ->
    (keeps (k_reg c) r' \/ deleted ev) /\ (forall s g, m_find Nat.eqb s dead' = Some g -> (exists g0, m_find Nat.eqb s (k_dead c) = Some g0) \/ deleted ev).
  Proof.
    intros K ET S. pose proof (ki_thr _ K _ _ ET) as PO.
    assert (KR : keeps (k_reg c) (k_reg c)) by apply keeps_refl.
    assert (CR : forall e n now id r1, rg_create ne e n now (k_reg c) = Ok (id, r1) -> keeps (k_reg c) r1).
    { intros. destruct (create_moves _ _ _ _ _ _ _ H (ki_ok _ K)) as (M & KE & R). auto. }
    assert (CL : forall s g o reg c1, k_call ne s g c = Ok (o, reg, c1) ->
      keeps (k_reg c) (k_reg c1) /\ (forall x gx, m_find Nat.eqb x (k_dead c1) = Some gx -> exists g0, m_find Nat.eqb x (k_dead c) = Some g0)).
    { intros s g o reg c1 E. destruct (call_shape _ _ _ _ _ _ _ E) as (g0 & g1 & EX & EC & D).
      destruct D as [(_ & pos & A & E1 & E2)|(_ & NA & E1 & EM & E2)]; rewrite E1, E2.
      - split; eauto. eapply set_shape; eauto. apply K.
      - split; auto. intros x gx X. cbn [m_find] in X. destruct (Nat.eqb_spec x s) as [->|N]; eauto.
        rewrite nat_find_erase in X. destruct (Nat.eqb_spec s x); [congruence|eauto]. }
    destruct S; subst; try (split; [left; assumption|left; eauto]); try (split; [left; eapply CR; eassumption|left; eauto]).
    - destruct op; try contradiction.
      + cbn [rg_do] in H2. bind_in H2 idr. destruct idr as [id r1]. injection H2 as <- <-. split; [left; eauto|left; eauto].
      + rewrite (call_none _ _ _ _ H1) in H2. injection H2 as <- <-. split; [left; auto|left; eauto].
      + cbn [rg_do] in H2. injection H2 as <- <-. split; [|left; eauto]. left. intros pos s g A. exists g. exact A.
      + cbn [rg_do] in H2. injection H2 as <- <-. split; [left; auto|left; eauto].
      + cbn [rg_do] in H2. bind_in H2 q. injection H2 as <- <-. split; [left; auto|left; eauto].
    - split; [right|right]; reflexivity.
    - destruct (CL _ _ _ _ _ H) as (X1 & X2). split; [left; auto|intros; left; eauto].
    - destruct (CL _ _ _ _ _ H) as (X1 & X2). split; [left; auto|intros; left; eauto].
    - destruct (CL _ _ _ _ _ H) as (X1 & X2). split; [left; auto|intros; left; eauto].
    - destruct (CL _ _ _ _ _ H) as (X1 & X2). split; [left; auto|intros; left; eauto].
    - destruct (CL _ _ _ _ _ H0) as (X1 & X2). split; [left; auto|intros; left; eauto].
    - destruct (CL _ _ _ _ _ H) as (X1 & X2). split; [left; auto|intros; left; eauto].
    - destruct (CL _ _ _ _ _ H0) as (X1 & X2). split; [left; auto|intros; left; eauto].
  Qed.

  Lemma quiet_other t t' c k p ev r' dead' p' : t <> t' -> Kstep ne t c k p ev r' dead' p' -> quiet t' ev.
  Proof.
    intros N S. destruct S; subst; unfold quiet, lin; repeat (apply Forall_app; split); repeat constructor; auto; try (destruct reg; exact I).
    destruct (out_ptr o); repeat constructor.
  Qed.
  Lemma quiet_next t c k p ev r' dead' p' : p <> PIdle -> Kstep ne t c k p ev r' dead' p' -> quiet t ev.
  Proof.
    intros N S. destruct S; subst; try congruence; unfold quiet, lin; repeat (apply Forall_app; split); repeat constructor; auto; try (destruct reg; exact I).
    destruct (out_ptr o); repeat constructor.
  Qed.
  Lemma LPc_frame t evs ev c c' p : quiet t ev -> LPc t evs c p -> keeps (k_reg c) (k_reg c') \/ deleted ev -> LPc t (evs ++ ev) c' p.
  Proof.
    intros Q L KE.
    assert (RG : forall s, regd c s -> regd c' s \/ deleted ev).
    { intros s (pos & g & A). destruct KE as [KE|KE]; auto. left. destruct (KE _ _ _ A) as (g' & A'). exists pos, g'. auto. }
    destruct p; simpl in *; auto; (eapply opened_mono; [exact Q| |exact L]); cbv beta; auto.
    - intros pre mid [H|H]; [destruct (RG _ H); auto|]; right; apply deleted_app; auto.
    - intros pre mid [H|[H|H]]; [destruct (RG _ H); auto| |auto]; right; left; apply deleted_app; auto.
  Qed.
  (** Thread [t] neither starts nor ends a call in [ev]. *)
  Definition silent (t : nat) (ev : list event) : Prop := Forall (fun e => match e with EInv t' _ | ERet t' _ => t' <> t | _ => True end) ev.
  Lemma silent_other t t' c k p ev r' dead' p' : t <> t' -> Kstep ne t c k p ev r' dead' p' -> silent t' ev.
  Proof.
    intros N S. destruct S; subst; unfold silent, lin; repeat (apply Forall_app; split); repeat constructor; auto; try (destruct reg; exact I).
    destruct (out_ptr o); repeat constructor.
  Qed.
  Lemma silent_next t c k p ev r' dead' p' : p <> PIdle -> p' <> PIdle -> Kstep ne t c k p ev r' dead' p' ->
    silent t ev /\ forall k0, from p k0 -> from p' k0.
  Proof.
    intros N N' S. destruct S; subst; try congruence; unfold silent, lin; (split; [|intros k0 FR; simpl in *; subst; auto]);
      repeat (apply Forall_app; split); repeat constructor; auto; try (destruct reg; exact I).
    all: try (destruct (out_ptr o); repeat constructor; fail).
    all: try (destruct k0 as [[]|]; auto; intuition; fail).
    all: simpl; auto.
  Qed.
  Lemma inside_next t k evs ev : silent t ev -> inside t k evs -> inside t k (evs ++ ev).
  Proof. intros S (a & b & -> & F). exists a, (b ++ ev). rewrite <- app_assoc. split; auto. apply Forall_app. auto. Qed.
  Lemma inside_start t c k ev r' dead' p' : p' <> PIdle -> Kstep ne t c k PIdle ev r' dead' p' -> inside t k ev /\ from p' k.
  Proof.
    intros N S. remember PIdle as p eqn:EP. destruct S; subst; try congruence; (split; [exists []; eexists; split; [reflexivity|]; repeat constructor|simpl; auto]).
  Qed.

  Lemma holder_call evs c t q s : KInv c -> LInv evs c -> nth_error (k_thr c) t = Some q -> holds s q = true ->
    regd c s \/ exists k, inside t k evs /\ may_hold s k.
  Proof.
    intros K L EQ HQ. assert (NI : q <> PIdle) by (intros ->; discriminate). destruct (li_in _ _ L _ _ EQ NI) as (k & IN & FR).
    destruct q; try discriminate; simpl in HQ; apply Nat.eqb_eq in HQ.
    - right. exists k. split; auto. simpl in FR. destruct k as [[]|]; try contradiction; exact I.
    - right. exists k. split; auto. simpl in FR. subst k. destruct dest; exact HQ.
    - right. exists k. split; auto. simpl in FR. destruct k as [|]; try contradiction. destruct FR as (<- & _). exact HQ.
    - right. exists k. split; auto. simpl in FR. destruct token; destruct k as [[]|]; try contradiction; simpl; congruence || exact I.
    - left. subst s0. exact (proj1 (ki_thr _ K _ _ EQ)).
  Qed.
  Lemma late_step evs c t k p ev p' c' : KInv c -> LInv evs c -> nth_error (k_thr c) t = Some p ->
    Kstep ne t c k p ev (k_reg c') (k_dead c') p' -> k_thr c' = set_nth t p' (k_thr c) ->
    LInv (evs ++ ev) c' /\ forall e1 t' a o e2, ev = e1 ++ ELate t' a o :: e2 -> late_ok t' a (evs ++ e1).
  Proof.
    intros K L ET S TH. destruct (step_keeps _ _ _ _ _ _ _ _ K ET S) as (KE & DE).
    pose proof (li_thr _ _ L _ _ ET) as LT.
    split.
    - constructor.
      + intros s g M. apply deleted_app. destruct (DE _ _ M) as [(g0 & M0)|D]; auto. left. eapply (li_dead _ _ L); eauto.
      + intros t' q Q. rewrite TH in Q. destruct (Nat.eq_dec t t') as [<-|N].
        * rewrite set_nth_same in Q by (now apply nth_error_lt in ET). injection Q as <-.
          assert (OPEN : forall ev1 (P : list event -> list event -> Prop), quiet t ev1 -> P evs ev1 -> opened t (evs ++ EInv t k :: ev1) P).
          { intros ev1 P Q1 HP. exists evs, k, ev1. auto. }
          assert (QN : p <> PIdle -> quiet t ev) by (intros; eapply quiet_next; eauto).
          assert (FR : p <> PIdle -> forall P, opened t evs P -> opened t (evs ++ ev) (fun _ _ => True)).
          { intros NI P O. eapply opened_mono; [exact (QN NI)| |exact O]. auto. }
          assert (RG : forall s, regd c s -> regd c' s \/ deleted ev).
          { intros s (pos & g & A). destruct KE as [KE|KE]; auto. left. destruct (KE _ _ _ A) as (g' & A'). exists pos, g'. auto. }
          assert (RG' : forall s pos g, nth_error (rg_arr (k_reg c)) pos = Some (Some (s, g)) -> regd c' s \/ deleted ev).
          { intros s pos g A. apply RG. exists pos, g. exact A. }
          clear KE DE TH. revert S. generalize (k_reg c') (k_dead c'). intros r' d' S.
          destruct S; subst; simpl.
          -- rewrite app_nil_r. destruct p; auto.
             ++ destruct LT as (a & b & m & X1 & X2 & X3). exists a, b, m. split; auto. split; auto. destruct X3 as [X3|X3]; auto. destruct (RG _ X3) as [R|R]; [auto|discriminate].
             ++ destruct LT as (a & b & m & X1 & X2 & X3). exists a, b, m. split; auto. split; auto. destruct X3 as [X3|X3]; auto. destruct (RG _ X3) as [R|R]; [auto|discriminate].
          -- exact I.
          -- exact I.
          -- apply OPEN; [constructor|]. apply get_in in H0. destruct (RG' _ _ _ H0) as [R|R]; [auto|discriminate].
          -- apply OPEN; auto. repeat constructor.
          -- apply OPEN; auto. repeat constructor.
          -- exact I.
          -- apply OPEN; [constructor|]. destruct H0 as [[pos A]|A].
             ++ destruct (RG' _ _ _ A) as [R|R]; [auto|discriminate].
             ++ destruct H3 as [[pos B]|HO]; [destruct (RG' _ _ _ B) as [R|R]; [auto|discriminate]|].
                apply existsb_exists in HO. destruct HO as (q & IN & HQ). apply In_nth_error in IN. destruct IN as (t' & EQ).
                destruct (holder_call _ _ _ _ _ K L EQ HQ) as [R|(k' & I1 & I2)]; [destruct (RG _ R) as [R'|R']; [auto|discriminate]|].
                right. right. split; [eapply (li_dead _ _ L); eauto|]. exists t', k'. split; auto. intros ->. rewrite ET in EQ. injection EQ as <-. discriminate.
          -- apply OPEN; auto. constructor.
          -- apply OPEN; auto. repeat constructor.
          -- eapply FR; [discriminate|exact LT].
          -- exact I.
          -- rewrite app_nil_r. destruct LT as (a & b & m & X1 & X2 & X3). exists a, b, m. split; auto. split; auto.
             apply get_in in H. destruct (RG' _ _ _ H) as [R|R]; [auto|discriminate].
          -- exact I.
          -- exact I.
          -- eapply FR; [discriminate|exact LT].
          -- eapply FR; [discriminate|exact LT].
          -- eapply FR; [discriminate|exact LT].
          -- eapply FR; [discriminate|exact LT].
          -- exact I.
          -- eapply FR; [discriminate|exact LT].
          -- eapply FR; [discriminate|exact LT].
          -- eapply FR; [discriminate|exact LT].
          -- exact I.
          -- eapply FR; [discriminate|exact LT].
          -- eapply FR; [discriminate|exact LT].
        * rewrite set_nth_other in Q by auto. eapply LPc_frame; eauto. eapply quiet_other; eauto. eapply (li_thr _ _ L); eauto.
      + intros t' q Q NI. rewrite TH in Q. destruct (Nat.eq_dec t t') as [<-|N].
        * rewrite set_nth_same in Q by (now apply nth_error_lt in ET). injection Q as <-.
          assert (DI : p = PIdle \/ p <> PIdle) by (destruct p; auto; right; discriminate). destruct DI as [->|NP].
          -- destruct (inside_start _ _ _ _ _ _ _ NI S) as ((a & b & -> & F) & FR). exists k. split; auto. exists (evs ++ a), b. rewrite <- app_assoc. auto.
          -- destruct (silent_next _ _ _ _ _ _ _ _ NP NI S) as (SI & FR). destruct (li_in _ _ L _ _ ET NP) as (k0 & IN & F0). exists k0. split; auto. now apply inside_next.
        * rewrite set_nth_other in Q by auto. destruct (li_in _ _ L _ _ Q NI) as (k0 & IN & F0). exists k0. split; auto. apply inside_next; auto.
          eapply silent_other; eauto.
    - intros e1 t' a o e2 EV.
      assert (LATE : forall s g out reg c1 b r tail, k_call ne s g c = Ok (out, reg, c1) -> ev = lin reg t s g out b r ++ tail ->
        (forall e, In e tail -> match e with ELate _ _ _ => False | _ => True end) ->
        e1 = [EObj t s g out] /\ t' = t /\ a = b /\ ~ regd c s).
      { intros s g out reg c1 b r tail EC EE NT. rewrite EE in EV. unfold lin in EV. simpl in EV.
        destruct (call_shape _ _ _ _ _ _ _ EC) as (x0 & x1 & _ & _ & D).
        destruct e1 as [|x e1]; [discriminate|]. injection EV as <- EV. destruct e1 as [|y e1].
        - destruct reg; [discriminate|]. injection EV as -> -> _ _. destruct D as [(D & _)|(_ & NA & _)]; [discriminate|].
          split; auto. split; auto. split; auto. intros (q & gq & A). eapply NA; eauto.
        - injection EV as _ EV. exfalso. specialize (NT (ELate t' a o)). apply NT. rewrite EV. apply in_app_iff. right. left. auto. }
      assert (NOLATE : forall l, ev = l -> (forall e, In e l -> match e with ELate _ _ _ => False | _ => True end) -> False).
      { intros l -> NT. apply (NT (ELate t' a o)). rewrite EV. apply in_app_iff. right. left. auto. }
      assert (REGD : forall pos s g0, at_pos (k_reg c) pos s g0 -> regd c s) by (intros pos s g0 A; exists pos, g0; exact A).
      destruct S; try (exfalso; eapply NOLATE; [reflexivity|]; simpl; intros ? ?; repeat match goal with H : _ \/ _ |- _ => destruct H as [<-|H] end; auto; contradiction).
      + destruct (LATE _ _ _ _ _ _ _ [] H (eq_sym (app_nil_r _))) as (-> & -> & -> & NR); [intros ? []|].
        destruct LT as (pre & k0 & mid & -> & Q & [R|D]); [contradiction|].
        exists pre, k0, (mid ++ [EObj t s g o0]). rewrite <- app_assoc. split; auto. split; [apply Forall_app; split; auto|].
        apply deleted_app. auto.
      + destruct (LATE _ _ _ _ _ _ _ [] H (eq_sym (app_nil_r _))) as (-> & -> & -> & NR); [intros ? []|].
        destruct LT as (pre & k0 & mid & E0 & Q & [R|D]); [contradiction|].
        assert (LO : existsb is_del (mid ++ [EObj t (rp_obj p) g o0]) = true \/
          existsb is_del pre = true /\ exists t' k', t' <> t /\ inside t' k' pre /\ may_hold (rp_obj p) k').
        { destruct D as [D|D]; [left; apply deleted_app; auto|right; exact D]. }
        exists pre, k0, (mid ++ [EObj t (rp_obj p) g o0]). split; [rewrite E0, <- app_assoc; reflexivity|]. split; [apply Forall_app; split; auto|].
        unfold push_act. destruct (cleared _ _); exact LO.
      + destruct (LATE _ _ _ _ _ _ _ [] H (eq_sym (app_nil_r _))) as (-> & -> & -> & NR); [intros ? []|].
        destruct LT as (pre & k0 & mid & E0 & Q & [R|D]); [contradiction|].
        assert (LO : existsb is_del (mid ++ [EObj t (rp_obj p) g o0]) = true \/
          existsb is_del pre = true /\ exists t' k', t' <> t /\ inside t' k' pre /\ may_hold (rp_obj p) k').
        { destruct D as [D|D]; [left; apply deleted_app; auto|right; exact D]. }
        exists pre, k0, (mid ++ [EObj t (rp_obj p) g o0]). split; [rewrite E0, <- app_assoc; reflexivity|]. split; [apply Forall_app; split; auto|].
        unfold push_act. destruct (cleared _ _); exact LO.
      + destruct (LATE _ _ _ _ _ _ _ [] H (eq_sym (app_nil_r _))) as (-> & -> & -> & NR); [intros ? []|].
        destruct LT as (pre & k0 & mid & E0 & Q & [R|D]); [contradiction|].
        assert (LO : existsb is_del (mid ++ [EObj t (rp_obj p) g o0]) = true \/
          existsb is_del pre = true /\ exists t' k', t' <> t /\ inside t' k' pre /\ may_hold (rp_obj p) k').
        { destruct D as [D|D]; [left; apply deleted_app; auto|right; exact D]. }
        exists pre, k0, (mid ++ [EObj t (rp_obj p) g o0]). split; [rewrite E0, <- app_assoc; reflexivity|]. split; [apply Forall_app; split; auto|].
        unfold push_act. destruct (cleared _ _); exact LO.
      + exfalso. destruct (LATE _ _ _ _ _ _ _ [] H0 (eq_sym (app_nil_r _))) as (_ & _ & _ & NR); [intros ? []|]. apply NR. eapply REGD. eapply get_in; eauto.
      + exfalso. destruct (LATE _ _ _ _ _ _ _ _ H eq_refl) as (_ & _ & _ & NR).
        { destruct (out_ptr o0); simpl; intros ? [<-|[]] || intros ? []; exact I. }
        apply NR. pose proof (ki_thr _ K _ _ ET) as (PO & _). exact PO.
      + exfalso. destruct (LATE _ _ _ _ _ _ _ [] H0 (eq_sym (app_nil_r _))) as (_ & _ & _ & NR); [intros ? []|]. apply NR. eapply REGD. exact H.
  Qed.

  (** * Whole executions *)
  Record Good (o : rgopts) (n : nat) (evs : list event) (c : conc) : Prop := {
    go_inv : KInv c;
    go_len : length (k_thr c) = n;
    go_runs : runs (rg_new o) evs (k_reg c);
    go_told : forall t p, nth_error (k_thr c) t = Some p -> told t evs p;
    go_nobody : forall t, (n <= t)%nat -> of t evs = [];
    go_hist : HInv o evs c;
    go_late : LInv evs c;
    go_lates : forall pre t a x post, evs = pre ++ ELate t a x :: post -> late_ok t a pre }.
  Lemma Good_new o n : Good o n [] (k_new o n).
  Proof.
    constructor; auto.
    - apply KInv_new.
    - apply repeat_length.
    - apply runs_nil.
    - intros t p H. simpl in H. apply nth_error_In, repeat_spec in H. subst p. exists [], []. repeat constructor.
    - constructor; auto. intros s g [[[|p] H]|H]; discriminate.
    - constructor; [discriminate| |]; intros t p H; simpl in H; apply nth_error_In, repeat_spec in H; subst; [exact I|congruence].
    - intros [|? pre]; discriminate.
  Qed.
  Lemma split_late {A} (x y pre post : list A) e : x ++ y = pre ++ e :: post ->
    (exists post1, x = pre ++ e :: post1) \/ (exists e1, y = e1 ++ e :: post /\ pre = x ++ e1).
  Proof.
    revert pre. induction x as [|a x IH]; intros pre E; simpl in E; [right; exists pre; auto|].
    destruct pre as [|b pre]; injection E as <- E.
    - left. eexists. reflexivity.
    - destruct (IH _ E) as [(p1 & ->)|(e1 & -> & ->)]; [left; exists p1; reflexivity|right; exists e1; auto].
  Qed.
  Lemma Good_step o n evs c t k ev c' : Good o n evs c -> k_step ne t k c = Ok (ev, c') -> Good o n (evs ++ ev) c'.
  Proof.
    intros G E. destruct (step_Kstep _ _ _ _ _ _ E) as [(_ & -> & ->)|(p & p' & ET & S & TH)]; [now rewrite app_nil_r|].
    destruct G as [G1 G2 G3 G4 G5 G6 G7 G8]. destruct (late_step _ _ _ _ _ _ _ _ G1 G7 ET S TH) as (L1 & L2). constructor; auto.
    - eapply step_KInv; eauto.
    - rewrite TH, set_nth_length. auto.
    - eapply runs_app; eauto. eapply step_runs; eauto.
    - intros t' q Q. rewrite TH in Q. destruct (Nat.eq_dec t t') as [<-|N].
      + rewrite set_nth_same in Q by (now apply nth_error_lt in ET). injection Q as <-. eapply story_step; eauto.
      + rewrite set_nth_other in Q by auto. destruct (G4 _ _ Q) as (l & cur & A & B & C). exists l, cur. rewrite of_app, (story_other _ _ _ _ _ _ _ _ _ N S), app_nil_r. auto.
    - intros t' L. rewrite of_app, G5 by auto. assert (t <> t') by (apply nth_error_lt in ET; lia). now rewrite (story_other _ _ _ _ _ _ _ _ _ H S).
    - eapply hist_step; eauto.
    - intros pre t' a x post EQ. destruct (split_late _ _ _ _ _ EQ) as [(p1 & X)|(e1 & X & ->)]; eauto.
  Qed.
  Lemma Good_run o n sched : forall evs c evs' c', Good o n evs c ->
    k_run ne c sched = Ok (evs', c') -> Good o n (evs ++ evs') c'.
  Proof.
    induction sched as [|[t k] sched IH]; intros evs c evs' c' G E; cbn [k_run] in E; [injection E as <- <-; now rewrite app_nil_r|].
    bind_in E x. destruct x as [ev c1]. bind_in E y. destruct y as [evs2 c2]. injection E as <- <-. rewrite app_assoc.
    eapply IH; eauto. eapply Good_step; eauto.
  Qed.
  Lemma run_Good o n sched evs c : k_run ne (k_new o n) sched = Ok (evs, c) -> Good o n evs c.
  Proof. intros E. eapply (Good_run o n sched [] _ evs); eauto. apply Good_new. Qed.
  Lemma Good_story o n evs c t : Good o n evs c -> story t (of t evs).
  Proof.
    intros G. destruct (lt_dec t n) as [L|L].
    - destruct (nth_error (k_thr c) t) as [p|] eqn:E; [|apply nth_error_None in E; rewrite (go_len _ _ _ _ G) in E; lia].
      destruct (go_told _ _ _ _ G _ _ E) as (l & cur & -> & C & CU). apply story_app_closed; auto. eapply current_story; eauto.
    - rewrite (go_nobody _ _ _ _ G) by lia. constructor.
  Qed.
End Lin.
