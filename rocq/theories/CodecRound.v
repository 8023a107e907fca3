(** Round trips of the codecs of ModelCodec. *)
From Coq Require Import String Ascii ZArith NArith List Bool Lia.
From Verif Require Import Base ModelTypes ModelReducer ModelSeparator ModelAggregator ModelRegistry ModelJson ModelPacker SpecPacker ModelCodec SpecCodec PackName.
Import ListNotations.
Local Open Scope Z_scope.
Local Open Scope list_scope.

Definition rt {A} (c : codec A) (P : A -> Prop) : Prop := forall a t, P a -> c_dec c (c_enc c a) t = (a, true).

Lemma rt_i64 : rt c_i64 int64.
Proof. intros a t [H1 H2]. cbn [c_dec c_enc c_i64]. apply Z.leb_le in H1. apply Z.ltb_lt in H2. rewrite H1, H2. reflexivity. Qed.
Lemma rt_u64 : rt c_u64 uint64.
Proof. intros a t [H1 H2]. cbn [c_dec c_enc c_u64]. apply Z.leb_le in H1. apply Z.ltb_lt in H2. rewrite H1, H2. reflexivity. Qed.
Lemma rt_size : rt c_size (fun n => uint64 (Z.of_nat n)).
Proof. intros a t [H1 H2]. cbn [c_dec c_enc c_size]. apply Z.leb_le in H1. apply Z.ltb_lt in H2. rewrite H1, H2. cbn [andb]. rewrite Nat2Z.id. reflexivity. Qed.
Lemma rt_str : rt c_str (fun _ => True).
Proof. intros a t _. reflexivity. Qed.
Lemma rt_bool : rt c_bool (fun _ => True).
Proof. intros a t _. reflexivity. Qed.
Lemma rt_res : rt c_res (fun _ => True).
Proof. intros a t _. destruct a; reflexivity. Qed.
Lemma rt_vec {A} (c : codec A) a0 P : rt c P -> rt (c_vec c a0) (Forall P).
Proof.
  intros R l t F. cbn [c_dec c_enc c_vec]. induction F as [|x l H F IH]; [reflexivity|]. cbn [map vec_dec]. rewrite (R x a0 H). cbn [vec_dec]. rewrite IH. reflexivity.
Qed.

(** ** Objects, members in any order *)
Section Obj.
  Context {T R : Type} (P : T -> Prop) (rest : T -> R).
  Variable ms : list (member T).
  Definition has (l : list (name * json)) (k : name) : bool := existsb (fun p => name_eqb (fst p) k) l.
  (** reading the member [m] of [a] sets exactly that member *)
  Definition sets (m : member T) : Prop :=
    forall a t, P a -> exists t', m_dec m (m_enc m a) t = (t', true) /\ rest t' = rest t /\
      Forall (fun m' => m_enc m' t' = if name_eqb (m_key m') (m_key m) then m_enc m' a else m_enc m' t) ms.
  Hypothesis S : Forall sets ms.

  (** the members present in [l] are those of [a]; others are unknown *)
  Definition from (strict : bool) (a : T) (l : list (name * json)) : Prop :=
    Forall (fun p => (exists m, In m ms /\ p = (m_key m, m_enc m a)) \/ (strict = false /\ forall m, In m ms -> m_key m <> fst p)) l.

  Hypothesis U : forall m m', In m ms -> In m' ms -> m_key m = m_key m' -> m = m'.

  Lemma find_member m : In m ms -> find (fun m' => name_eqb (m_key m') (m_key m)) ms = Some m.
  Proof.
    intros I. destruct (find (fun m' => name_eqb (m_key m') (m_key m)) ms) as [m'|] eqn:E.
    - apply find_some in E. destruct E as [I' E]. apply name_eqb_eq in E. f_equal. apply U; auto.
    - eapply find_none in E; [|exact I]. cbn in E. assert (name_eqb (m_key m) (m_key m) = true) by (apply name_eqb_eq; reflexivity). congruence.
  Qed.

  Lemma obj_mix strict a l : P a -> from strict a l -> forall t,
    exists t', obj_dec strict ms l t = (t', true) /\ rest t' = rest t /\
      Forall (fun m => m_enc m t' = if has l (m_key m) then m_enc m a else m_enc m t) ms.
  Proof.
    intros PA F. induction F as [|[k j] l H F IH]; intros t.
    - exists t. repeat split. apply Forall_forall. intros; reflexivity.
    - cbn [obj_dec]. destruct H as [(m & I & E)|[-> N]].
      + inversion E; subst k j. clear E. rewrite find_member by exact I. rewrite Forall_forall in S. destruct (S m I a t PA) as (t1 & D & R1 & Q1). rewrite D.
        destruct (IH t1) as (t' & D' & R' & Q'). exists t'. split; [exact D'|]. split; [congruence|]. rewrite Forall_forall in *.
        intros m' I'. rewrite (Q' m' I'). unfold has. cbn [existsb fst]. rewrite (Q1 m' I').
        replace (name_eqb (m_key m') (m_key m)) with (name_eqb (m_key m) (m_key m')). 2:{ apply eq_true_iff_eq. rewrite !name_eqb_eq. split; congruence. }
        destruct (existsb _ l), (name_eqb (m_key m) (m_key m')); reflexivity.
      + cbn [fst] in N. destruct (find (fun m => name_eqb (m_key m) k) ms) as [m|] eqn:E.
        { apply find_some in E. destruct E as [I E]. apply name_eqb_eq in E. destruct (N m I E). }
        destruct (IH t) as (t' & D' & R' & Q'). exists t'. split; [exact D'|]. split; [exact R'|]. rewrite Forall_forall in *. intros m' I'. rewrite (Q' m' I').
        unfold has. cbn [existsb fst]. destruct (name_eqb k (m_key m')) eqn:E'; [|reflexivity]. apply name_eqb_eq in E'. destruct (N m' I'). congruence.
  Qed.
  Lemma from_pairs strict a : from strict a (pairs ms a).
  Proof. apply Forall_forall. intros p I. unfold pairs in I. apply in_map_iff in I. destruct I as (m & <- & I). left. eauto. Qed.
  Lemma has_pairs a m : In m ms -> has (pairs ms a) (m_key m) = true.
  Proof. intros I. apply existsb_exists. exists (m_key m, m_enc m a). split; [apply in_map_iff; eauto|]. apply name_eqb_eq. reflexivity. Qed.
  Lemma arr_obj a ms2 : incl ms2 ms -> forall t, arr_dec ms2 (map (fun m => m_enc m a) ms2) t = obj_dec true ms (pairs ms2 a) t.
  Proof.
    induction ms2 as [|m ms2 IH]; intros I t; [reflexivity|]. cbn [map arr_dec pairs obj_dec]. rewrite find_member by (apply I; left; reflexivity).
    destruct (m_dec m (m_enc m a) t) as [t1 []]; [|reflexivity]. apply IH. intros x H. apply I. right. exact H.
  Qed.
  Lemma obj_rt strict a l : P a -> from strict a l -> (forall m, In m ms -> has l (m_key m) = true) -> forall t,
    exists t', obj_dec strict ms l t = (t', true) /\ rest t' = rest t /\ Forall (fun m => m_enc m t' = m_enc m a) ms.
  Proof.
    intros PA F H t. destruct (obj_mix strict a l PA F t) as (t' & D & R' & Q). exists t'. split; [exact D|]. split; [exact R'|].
    rewrite Forall_forall in *. intros m I. rewrite (Q m I), (H m I). reflexivity.
  Qed.
  Lemma object_rt strict a : P a -> forall t, exists t', c_dec (c_object strict ms) (c_enc (c_object strict ms) a) t = (t', true) /\ rest t' = rest t /\ Forall (fun m => m_enc m t' = m_enc m a) ms.
  Proof. intros PA t. apply obj_rt; auto using from_pairs. intros; apply has_pairs; assumption. Qed.
  Lemma array_rt a : P a -> forall t, exists t', c_dec (c_array ms) (c_enc (c_array ms) a) t = (t', true) /\ rest t' = rest t /\ Forall (fun m => m_enc m t' = m_enc m a) ms.
  Proof. intros PA t. cbn [c_dec c_enc c_array]. rewrite arr_obj by apply incl_refl. apply object_rt with (strict := true). exact PA. Qed.
End Obj.

Lemma field_dec {T A} k (c : codec A) (get : T -> A) set (P : A -> Prop) a t : rt c P -> P (get a) -> m_dec (field k c get set) (m_enc (field k c get set) a) t = (set (get a) t, true).
Proof. intros R H. cbn. rewrite (R _ (get t) H). reflexivity. Qed.
Lemma uniq_keys {T} (ms : list (member T)) : NoDup (map m_key ms) -> forall m m', In m ms -> In m' ms -> m_key m = m_key m' -> m = m'.
Proof.
  induction ms as [|x ms IH]; [intros _ ? ? []|]. intros N m m' I I' E. inversion N as [|? ? NI N']; subst.
  destruct I as [<-|I], I' as [<-|I']; auto.
  - destruct NI. rewrite E. apply in_map. exact I'.
  - destruct NI. rewrite <- E. apply in_map. exact I.
Qed.
Fixpoint nodup_b (l : list name) : bool := match l with [] => true | x :: t => negb (existsb (name_eqb x) t) && nodup_b t end.
Lemma nodup_b_ok l : nodup_b l = true -> NoDup l.
Proof.
  induction l as [|x l IH]; [constructor|]. cbn. intros H. apply andb_prop in H. destruct H as [H1 H2]. constructor; [|auto]. intros I.
  apply negb_true_iff in H1. assert (existsb (name_eqb x) l = true) by (apply existsb_exists; exists x; split; [exact I|apply name_eqb_eq; reflexivity]). congruence.
Qed.
Ltac hyp_of H := cbn; repeat match type of H with _ /\ _ => let H1 := fresh in destruct H as [H1 H] end; first [exact I|assumption].
Ltac one_set :=
  let H := fresh "H" in intros ? ? H; eexists; split;
  [unfold f_lossy, f_min, f_max, field; cbn [m_dec m_enc];
   first [rewrite rt_i64|rewrite rt_u64|rewrite rt_str|rewrite rt_size|rewrite rt_bool|rewrite rt_res|rewrite (rt_vec c_i64 0 int64 rt_i64)|rewrite (rt_vec c_str [] _ rt_str)]; [reflexivity|]
  |split; [reflexivity|repeat constructor]].
Lemma push_sets compact : Forall (sets push_typed (fun _ => tt) (push_members compact)) (push_members compact).
Proof.
  destruct compact; cbn [push_members ad_members app map base info_head info_tail perc_members info_tail_compact].
  all: repeat (constructor; [one_set; unfold push_typed, info_typed, perc_typed in *; first [exact I|tauto]|]); constructor.
Qed.
Lemma push_uniq compact m m' : In m (push_members compact) -> In m' (push_members compact) -> m_key m = m_key m' -> m = m'.
Proof. apply uniq_keys, nodup_b_ok. destruct compact; vm_compute; reflexivity. Qed.
Lemma map_JNum_inj l1 l2 : map JNum l1 = map JNum l2 -> l1 = l2.
Proof. revert l2. induction l1 as [|x l1 IH]; intros [|y l2] E; try discriminate; [reflexivity|]. inversion E. f_equal; auto. Qed.
Lemma map_JStr_inj l1 l2 : map JStr l1 = map JStr l2 -> l1 = l2.
Proof. revert l2. induction l1 as [|x l1 IH]; intros [|y l2] E; try discriminate; [reflexivity|]. inversion E. f_equal; auto. Qed.
Lemma Forall_map_eq {A B} (f g : A -> B) l : Forall (fun x => f x = g x) l -> map f l = map g l.
Proof. induction 1 as [|x l E F IH]; [reflexivity|]. cbn. rewrite E, IH. reflexivity. Qed.
Lemma push_ext compact p q : Forall (fun m => m_enc m p = m_enc m q) (push_members compact) -> p = q.
Proof.
  destruct p as [n [[] [] d]], q as [n' [[] [] d']]. intros F. apply Forall_map_eq in F. destruct compact; cbn in F; injection F; intros E; apply map_JNum_inj in E; intros; subst; reflexivity.
Qed.
Lemma rt_push compact : rt (c_push compact) push_typed.
Proof.
  intros p t H. unfold c_push. destruct compact.
  - destruct (array_rt push_typed (fun _ => tt) _ (push_sets true) (push_uniq true) p H t) as (t' & D & _ & Q). rewrite D. f_equal. exact (push_ext true _ _ Q).
  - destruct (object_rt push_typed (fun _ => tt) _ (push_sets false) (push_uniq false) false p H t) as (t' & D & _ & Q). rewrite D. f_equal. exact (push_ext false _ _ Q).
Qed.
Lemma push_from strict p l : push_typed p -> from (push_members false) strict p l -> (forall m, In m (push_members false) -> has l (m_key m) = true) ->
  forall t, obj_dec strict (push_members false) l t = (p, true).
Proof.
  intros H F A t. destruct (obj_rt push_typed (fun _ => tt) _ (push_sets false) (push_uniq false) strict p l H F A t) as (t' & D & _ & Q). rewrite D. f_equal. exact (push_ext false _ _ Q).
Qed.
Lemma enc_push compact p : c_enc (c_push compact) p = if compact then jpush_compact p else jpush p.
Proof. destruct compact; reflexivity. Qed.

Lemma map_inj {A} (f : A -> json) : (forall x y, f x = f y -> x = y) -> forall l1 l2, map f l1 = map f l2 -> l1 = l2.
Proof. intros J. induction l1 as [|x l1 IH]; intros [|y l2] E; try discriminate; [reflexivity|]. inversion E. f_equal; auto. Qed.
Lemma enc_push_inj compact p q : c_enc (c_push compact) p = c_enc (c_push compact) q -> p = q.
Proof.
  destruct p as [n [[] [] d]], q as [n' [[] [] d']]. intros F. destruct compact; cbn in F; injection F; intros E; apply map_JNum_inj in E; intros; subst; reflexivity.
Qed.
Definition mpush_typed (m : mpush) : Prop := Forall push_typed (mp_data m).
Lemma mpush_sets compact : Forall (sets mpush_typed (fun _ => tt) (mpush_members compact)) (mpush_members compact).
Proof.
  unfold mpush_members. constructor; [one_set; exact I|]. constructor; [one_set; apply Forall_forall; intros; exact I|]. constructor; [|constructor].
  intros a t H. eexists. split; [unfold field; cbn [m_dec m_enc]; rewrite (rt_vec (c_push compact) push0 _ (rt_push compact)) by exact H; reflexivity|]. split; [reflexivity|repeat constructor].
Qed.
Lemma mpush_uniq compact m m' : In m (mpush_members compact) -> In m' (mpush_members compact) -> m_key m = m_key m' -> m = m'.
Proof. apply uniq_keys, nodup_b_ok. destruct compact; vm_compute; reflexivity. Qed.
Lemma mpush_ext compact p q : Forall (fun m => m_enc m p = m_enc m q) (mpush_members compact) -> p = q.
Proof.
  destruct p as [s l d], q as [s' l' d']. intros F. apply Forall_map_eq in F. cbn [map mpush_members field m_enc c_str c_vec c_enc mp_sep mp_legend mp_data] in F. injection F as E1 E2 E3.
  apply map_JStr_inj in E2. apply map_inj in E3; [|apply enc_push_inj]. congruence.
Qed.
Lemma rt_mpush compact : rt (c_mpush compact) mpush_typed.
Proof.
  intros p t H. unfold c_mpush. destruct compact.
  - destruct (array_rt mpush_typed (fun _ => tt) _ (mpush_sets true) (mpush_uniq true) p H t) as (t' & D & _ & Q). rewrite D. f_equal. exact (mpush_ext true _ _ Q).
  - destruct (object_rt mpush_typed (fun _ => tt) _ (mpush_sets false) (mpush_uniq false) false p H t) as (t' & D & _ & Q). rewrite D. f_equal. exact (mpush_ext false _ _ Q).
Qed.
Lemma mpush_from strict p l : mpush_typed p -> from (mpush_members false) strict p l -> (forall m, In m (mpush_members false) -> has l (m_key m) = true) ->
  forall t, obj_dec strict (mpush_members false) l t = (p, true).
Proof.
  intros H F A t. destruct (obj_rt mpush_typed (fun _ => tt) _ (mpush_sets false) (mpush_uniq false) strict p l H F A t) as (t' & D & _ & Q). rewrite D. f_equal. exact (mpush_ext false _ _ Q).
Qed.
Lemma enc_mpush compact m : c_enc (c_mpush compact) m = if compact then jmpush_compact m else jmpush m.
Proof. destruct compact; cbn; unfold jmpush, jmpush_compact; rewrite <- ?(map_ext _ _ (enc_push _)); reflexivity. Qed.
Lemma del_sets : Forall (sets (fun _ => True) (fun _ => tt) del_members) del_members.
Proof. constructor; [one_set; apply Forall_forall; intros; exact I|constructor]. Qed.
Lemma del_uniq m m' : In m del_members -> In m' del_members -> m_key m = m_key m' -> m = m'.
Proof. apply uniq_keys, nodup_b_ok. vm_compute. reflexivity. Qed.
Lemma del_ext p q : Forall (fun m => m_enc m p = m_enc m q) del_members -> p = q.
Proof. intros F. apply Forall_map_eq in F. cbn in F. injection F. apply map_JStr_inj. Qed.
Lemma rt_del compact : rt (c_del compact) (fun _ => True).
Proof.
  intros p t H. unfold c_del. destruct compact.
  - destruct (array_rt (fun _ => True) (fun _ => tt) _ del_sets del_uniq p H t) as (t' & D & _ & Q). rewrite D. f_equal. exact (del_ext _ _ Q).
  - destruct (object_rt (fun _ => True) (fun _ => tt) _ del_sets del_uniq false p H t) as (t' & D & _ & Q). rewrite D. f_equal. exact (del_ext _ _ Q).
Qed.
Lemma rt_push_res compact : rt (c_push_res compact) (fun _ => True).
Proof. intros b t _. destruct compact, b; reflexivity. Qed.
Lemma rt_mpush_res compact : rt (c_mpush_res compact) (fun _ => True).
Proof. intros [b e] [b' e'] _. destruct compact; reflexivity. Qed.

(** ** Options *)
(** what the codecs of the options do not touch *)
Definition wrest (o : wopts) :=
  let r := so_red (ao_sep (rgo_agg (wo_rg o))) in (o_mode r, o_initial r, rgo_init (wo_rg o), rgo_step (wo_rg o), rgo_initializer (wo_rg o), wo_handler o).
Lemma wopts_sets : Forall (sets wopts_typed wrest wopts_members) wopts_members.
Proof.
  unfold wopts_members, aopts_members, sopts_members, ropts_members. cbn [base map app].
  repeat (constructor; [one_set; unfold wopts_typed, aopts_typed in *; first [exact I|tauto]|]); constructor.
Qed.
Lemma wopts_uniq m m' : In m wopts_members -> In m' wopts_members -> m_key m = m_key m' -> m = m'.
Proof. apply uniq_keys, nodup_b_ok. vm_compute. reflexivity. Qed.
Definition marest (o : maoptions) := let r := so_red (ao_sep (mo_agg o)) in (o_mode r, o_initial r).
Definition maopts_typed (o : maoptions) : Prop := aopts_typed (mo_agg o) /\ uint64 (Z.of_nat (mo_pool o)) /\ uint64 (Z.of_nat (mo_hash o)).
Lemma maopts_sets : Forall (sets maopts_typed marest maopts_members) maopts_members.
Proof.
  unfold maopts_members, aopts_members, sopts_members, ropts_members. cbn [base map app].
  repeat (constructor; [one_set; unfold maopts_typed, aopts_typed in *; first [exact I|tauto]|]); constructor.
Qed.
Lemma maopts_uniq m m' : In m maopts_members -> In m' maopts_members -> m_key m = m_key m' -> m = m'.
Proof. apply uniq_keys, nodup_b_ok. vm_compute. reflexivity. Qed.
Definition popts_typed (o : popts) : Prop := uint64 (po_push o) /\ uint64 (po_data o) /\ uint64 (po_json o).
Lemma popts_sets : Forall (sets popts_typed (fun _ => tt) popts_members) popts_members.
Proof.
  unfold popts_members. repeat (constructor; [one_set; unfold popts_typed in *; first [exact I|tauto]|]); constructor.
Qed.
Lemma popts_uniq m m' : In m popts_members -> In m' popts_members -> m_key m = m_key m' -> m = m'.
Proof. apply uniq_keys, nodup_b_ok. vm_compute. reflexivity. Qed.
Lemma res_text_inj a b : res_text a = res_text b -> a = b.
Proof. destruct a, b; intros E; try discriminate; reflexivity. Qed.
