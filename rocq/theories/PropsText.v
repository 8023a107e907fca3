(** C54, C55, C79: the texts themselves. *)
From Coq Require Import String Ascii ZArith NArith List Bool Lia.
From Verif Require Import Base ModelTypes ModelReducer ModelSeparator ModelAggregator ModelRegistry ModelInfo ModelJson ModelPacker SpecPacker
  ModelCodec SpecCodec ModelRecords SpecRecords PackName PropsCodec PropsRecords SpecText.
Import ListNotations.
Local Open Scope Z_scope.
Local Open Scope list_scope.

Lemma map_jnum esc l : map (jprint esc) (map JNum l) = map wire_num l.
Proof. rewrite map_map. reflexivity. Qed.
Lemma map_jstr esc l : map (jprint esc) (map JStr l) = map (wire_str esc) l.
Proof. rewrite map_map. reflexivity. Qed.

(** C79 *)
(** Each kind of record, in both forms. *)
Theorem C79_text : forall esc compact k p, write esc (codec_of compact k) (part k p) = wire compact (wire_fields esc compact k p).
Proof.
  intros esc compact k [n [i q d]]. unfold write, wire, wire_fields. destruct compact, k;
    cbn [codec_of part pu_data pu_name ad_info ad_perc ad_data has_name has_info has_perc has_data app];
    unfold c_rinfo, c_perc, c_rdata, c_ainfo, c_adata, c_push, form, tail_of;
    cbn [c_enc c_array c_object]; rewrite <- ?(map_jnum esc); reflexivity.
Qed.
Print Assumptions C79_text.

Example C79_text_witness : wire false (wire_fields esc_std false KRData pz) =
  str "{""ts"":-3,""avg"":5,""count"":18446744073709551615,""lossy"":2,""min"":-9223372036854775808,""max"":9223372036854775807,""data"":[6,-7,0]}" /\
  wire true (wire_fields esc_std true KRData pz) = str "[-3,5,18446744073709551615,-9223372036854775808,9223372036854775807,2,[6,-7,0]]".
Proof. vm_compute. auto. Qed.

Theorem C79_del_response_text : forall esc, write esc (c_del_res false) tt = str "{}" /\ write esc (c_del_res true) tt = str "[]".
Proof. intros esc. split; reflexivity. Qed.
Print Assumptions C79_del_response_text.

(* ---- proof ---- *)
Lemma value_acc d : forall p, Zpos (Pos.of_uint_acc d p) = fold_left (fun a c => 10 * a + digit_value c)%Z (uint_text d) (Zpos p).
Proof.
  induction d as [|d IH|d IH|d IH|d IH|d IH|d IH|d IH|d IH|d IH|d IH]; intros p; [reflexivity|..]; cbn [uint_text fold_left Pos.of_uint_acc]; rewrite IH; f_equal;
    rewrite ?Pos2Z.inj_add, Pos2Z.inj_mul; match goal with |- context [digit_value ?c] => let v := eval vm_compute in (digit_value c) in change (digit_value c) with v end; lia.
Qed.
Lemma value_uint d : Z.of_N (N.of_uint d) = digits_value (uint_text d).
Proof.
  unfold N.of_uint, digits_value. induction d as [|d IH|d IH|d IH|d IH|d IH|d IH|d IH|d IH|d IH|d IH]; [reflexivity| |..]; cbn [uint_text fold_left Pos.of_uint];
    [rewrite IH; reflexivity|..]; cbn [Z.of_N]; rewrite value_acc; reflexivity.
Qed.
Lemma uint_digits d : Forall (fun c => 0 <= digit_value c <= 9)%Z (uint_text d).
Proof. induction d; cbn [uint_text]; constructor; auto; vm_compute; split; discriminate. Qed.
Lemma digit_cases c : (0 <= digit_value c <= 9)%Z -> In c (map ascii_of_nat (seq 48 10)).
Proof. destruct c as [[] [] [] [] [] [] [] []]; vm_compute; intros [A B]; try (exfalso; now apply A); try (exfalso; now apply B); tauto. Qed.
Lemma text_uint s : Forall (fun c => 0 <= digit_value c <= 9)%Z s -> exists d, s = uint_text d.
Proof.
  induction 1 as [|c s H _ [d ->]]; [exists Decimal.Nil; reflexivity|]. apply digit_cases in H. cbn in H.
  destruct H as [<-|[<-|[<-|[<-|[<-|[<-|[<-|[<-|[<-|[<-|[]]]]]]]]]]];
    [exists (Decimal.D0 d)|exists (Decimal.D1 d)|exists (Decimal.D2 d)|exists (Decimal.D3 d)|exists (Decimal.D4 d)|exists (Decimal.D5 d)|exists (Decimal.D6 d)|exists (Decimal.D7 d)|exists (Decimal.D8 d)|exists (Decimal.D9 d)]; reflexivity.
Qed.
Lemma nzhead_first d : forall e, Decimal.nzhead d <> Decimal.D0 e.
Proof. induction d; cbn; intros e; try discriminate; auto. Qed.
Lemma unorm_lead d : forall t, uint_text (Decimal.unorm d) = "0"%char :: t -> t = [].
Proof.
  intros t. unfold Decimal.unorm. destruct (Decimal.nzhead d) as [|e|e|e|e|e|e|e|e|e|e] eqn:E; cbn [uint_text]; intros H; try discriminate; [injection H as <-; reflexivity|]. destruct (nzhead_first d e E).
Qed.
Lemma lead_unorm d : uint_text d <> [] -> (forall t, uint_text d = "0"%char :: t -> t = []) -> Decimal.unorm d = d.
Proof.
  intros N L. destruct d as [|d|d|d|d|d|d|d|d|d|d]; try reflexivity; [destruct (N eq_refl)|]. specialize (L _ eq_refl). destruct d; try discriminate. reflexivity.
Qed.
Lemma dec_numeral n : dec n <> [] /\ Forall (fun c => 0 <= digit_value c <= 9)%Z (dec n) /\ (forall t, dec n = "0"%char :: t -> t = []) /\ digits_value (dec n) = Z.of_N n.
Proof.
  unfold dec. assert (U : N.to_uint n = Decimal.unorm (N.to_uint n)) by (rewrite <- DecimalN.Unsigned.to_of, DecimalN.Unsigned.of_to; reflexivity).
  split; [|split; [apply uint_digits|split; [rewrite U; apply unorm_lead|rewrite <- value_uint, DecimalN.Unsigned.of_to; reflexivity]]].
  rewrite U. unfold Decimal.unorm. destruct (Decimal.nzhead _); discriminate.
Qed.
Lemma numeral_dec ds : ds <> [] -> Forall (fun c => 0 <= digit_value c <= 9)%Z ds -> (forall t, ds = "0"%char :: t -> t = []) -> ds = dec (Z.to_N (digits_value ds)).
Proof.
  intros N F L. destruct (text_uint ds F) as [d ->]. rewrite <- value_uint, N2Z.id. unfold dec. rewrite DecimalN.Unsigned.to_of, lead_unorm; auto.
Qed.
(** C55 *)
(** Numbers are written as their decimal numerals. *)
Theorem C55_numbers : forall z s, numeral z s <-> s = wire_num z.
Proof.
  intros z s. unfold wire_num, dec_Z, numeral. split.
  - intros (ds & -> & N & F & L & V). rewrite (numeral_dec ds N F L), V. destruct (Z.ltb_spec z 0); [rewrite Z.abs_neq by lia|rewrite Z.abs_eq by lia]; reflexivity.
  - intros ->. destruct (Z.ltb_spec z 0).
    + exists (dec (Z.to_N (- z))). destruct (dec_numeral (Z.to_N (- z))) as (A & B & C & D). split; [reflexivity|]. split; auto. split; auto. split; auto. rewrite D. lia.
    + exists (dec (Z.to_N z)). destruct (dec_numeral (Z.to_N z)) as (A & B & C & D). split; [reflexivity|]. split; auto. split; auto. split; auto. rewrite D. lia.
Qed.
Print Assumptions C55_numbers.
Example C55_numbers_witness : numeral (-120) (str "-120") /\ numeral 0 (str "0") /\ ~ numeral 7 (str "07") /\ ~ numeral 7 (str "-7").
Proof. repeat split; try (apply C55_numbers; reflexivity); intros H; apply C55_numbers in H; discriminate. Qed.
Theorem C55_text : forall esc compact m,
  write esc (c_mpush compact) m =
  wire compact [("sep"%string, wire_str esc (mp_sep m)); ("legend"%string, wire_arr (map (wire_str esc) (mp_legend m)));
                ("data"%string, wire_arr (map (fun p => wire compact (wire_fields esc compact KPushed p)) (mp_data m)))].
Proof.
  intros esc compact [s l d].
  assert (E : map (fun p => wire compact (wire_fields esc compact KPushed p)) d = map (jprint esc) (map (c_enc (c_push compact)) d)).
  { rewrite map_map. apply map_ext. intros p. rewrite <- C79_text. reflexivity. }
  cbn [mp_sep mp_legend mp_data]. rewrite E, <- map_jstr. unfold write, wire. destruct compact; reflexivity.
Qed.
Print Assumptions C55_text.

Theorem C55_other_texts : forall esc compact,
  (forall names, write esc (c_del compact) names = wire compact [("names"%string, wire_arr (map (wire_str esc) names))]) /\
  (forall status, write esc (c_push_res compact) status = wire compact [("status"%string, wire_bool status)]) /\
  (forall m, write esc (c_mpush_res compact) m = wire compact [("status"%string, wire_bool (mr_status m)); ("error"%string, wire_str esc (mr_error m))]).
Proof.
  intros esc compact. split; [|split].
  - intros l. rewrite <- map_jstr. unfold write, wire. destruct compact; reflexivity.
  - intros []; destruct compact; reflexivity.
  - intros [[] e]; destruct compact; reflexivity.
Qed.
Print Assumptions C55_other_texts.

Example C55_text_witness : wire false [("names"%string, wire_arr (map (wire_str esc_std) [str "a"; str "b"]))] = str "{""names"":[""a"",""b""]}".
Proof. reflexivity. Qed.

(** C54 *)
Theorem C54_text : forall esc,
  (forall o, serialize_options esc o = wire_obj (wire_options esc (rgo_agg (wo_rg o)) ++ [("pool_size"%string, wire_size (wo_pool o))])) /\
  (forall o, write esc c_maopts o = wire_obj (wire_options esc (mo_agg o) ++ [("pool_size"%string, wire_size (mo_pool o)); ("hash_size"%string, wire_size (mo_hash o))])) /\
  (forall o, write esc c_popts o =
     wire_obj [("push_limit"%string, wire_num (po_push o)); ("data_limit"%string, wire_num (po_data o)); ("json_limit"%string, wire_num (po_json o));
               ("json_compact"%string, wire_bool (po_jcompact o)); ("name_sep"%string, wire_str esc (po_sep o)); ("name_compact"%string, wire_bool (po_ncompact o))]).
Proof.
  intros esc. split; [|split].
  - intros [[[[[] st [] so] out] a b c] pool h]; reflexivity.
  - intros [[[[] st [] so] out] pool h]; reflexivity.
  - intros [a b c [] e []]; reflexivity.
Qed.
Print Assumptions C54_text.

(** A resolution that is none of the five is refused, like an unknown option. *)
Theorem C54_bad_resolution : forall esc parse, wjson_ok esc parse -> forall fs ws l rest o0 s,
  blank ws -> plain_keys l -> no_digit rest -> In (str "resolution", JStr s) l -> ~ In s (map wire_res [RNone; RSeconds; RMillis; RMicros; RNanos]) ->
  fst (load parse fs (ws ++ object_text esc l ++ rest) o0) = false /\ load_options parse fs (ws ++ object_text esc l ++ rest) = wopts0.
Proof.
  intros esc parse W fs ws l rest o0 s B K N I NI.
  assert (X : forall o, snd (obj_dec true wopts_members l o) = false).
  { clear K. induction l as [|[k j] l IH]; [destruct I|]. intros o. cbn [obj_dec].
    destruct (find (fun m => name_eqb (m_key m) k) wopts_members) as [m|] eqn:F; [|reflexivity].
    destruct (m_dec m j o) as [o1 []] eqn:D; [|reflexivity]. destruct I as [I|I]; [|apply IH; exact I].
    assert (k = str "resolution") by congruence. assert (j = JStr s) by congruence. subst k j. exfalso.
    assert (M : find (fun m => name_eqb (m_key m) (str "resolution")) wopts_members = nth_error wopts_members 4) by reflexivity.
    rewrite M in F. cbn [nth_error wopts_members aopts_members sopts_members ropts_members base map app field m_key] in F. injection F as <-.
    cbn [m_dec m_enc m_key c_dec c_res] in D.
    assert (Q : find (fun r => name_eqb (res_text r) s) [RNone; RSeconds; RMillis; RMicros; RNanos] = None).
    { clear M D. match goal with |- find ?f ?x = None => destruct (find f x) as [r|] eqn:F; [|reflexivity] end. apply find_some in F. destruct F as [F1 F2]. apply name_eqb_eq in F2. subst s.
      destruct NI. replace (res_text r) with (wire_res r) by (destruct r; reflexivity). apply in_map. exact F1. }
    cbn [find] in Q. rewrite Q in D. discriminate. }
  unfold load_options. rewrite !(load_object esc parse W) by assumption. pose proof (X o0) as X1. pose proof (X wopts0) as X2.
  destruct (obj_dec true wopts_members l o0) as [? []]; [discriminate|]. destruct (obj_dec true wopts_members l wopts0) as [? []]; [discriminate|]. split; reflexivity.
Qed.
Print Assumptions C54_bad_resolution.


Example C54_bad_witness : exists l, plain_keys l /\ In (str "resolution", JStr (str "minutes")) l /\
  ~ In (str "minutes") (map wire_res [RNone; RSeconds; RMillis; RMicros; RNanos]) /\ object_text esc_std l = str "{""pool_size"":4,""resolution"":""minutes""}".
Proof.
  exists [(str "pool_size", JNum 4); (str "resolution", JStr (str "minutes"))]. split; [reflexivity|]. split; [right; left; reflexivity|].
  split; [vm_compute; intuition discriminate|reflexivity].
Qed.
