(** The kinds of records and what they have in common. *)
From Coq Require Import String Ascii ZArith NArith List Bool.
From Verif Require Import Base ModelTypes ModelInfo ModelJson ModelPacker ModelCodec ModelRecords.
Import ListNotations.

Inductive kind := KInfo | KPerc | KRData | KAInfo | KAData | KPushed.
Definition ty (k : kind) : Type :=
  match k with KInfo => rinfo | KPerc => perc | KRData => rdata | KAInfo => ainfo | KAData => adata | KPushed => push end.
(** The record of the kind with the values of [p], which has all of them. *)
Definition part (k : kind) (p : push) : ty k :=
  let d := pu_data p in
  match k with
  | KInfo => ad_info d
  | KPerc => ad_perc d
  | KRData => mk_rdata (ad_info d) (ad_data d)
  | KAInfo => mk_ainfo (ad_info d) (ad_perc d)
  | KAData => d
  | KPushed => p
  end.
Definition codec_of (compact : bool) (k : kind) : codec (ty k) :=
  match k with
  | KInfo => c_rinfo compact | KPerc => c_perc compact | KRData => c_rdata compact
  | KAInfo => c_ainfo compact | KAData => c_adata compact | KPushed => c_push compact
  end.
(** Which groups of fields a kind has. *)
Definition has_info (k : kind) : bool := match k with KPerc => false | _ => true end.
Definition has_perc (k : kind) : bool := match k with KPerc | KAInfo | KAData | KPushed => true | _ => false end.
Definition has_data (k : kind) : bool := match k with KRData | KAData | KPushed => true | _ => false end.
Definition has_name (k : kind) : bool := match k with KPushed => true | _ => false end.
(** [t] with the fields the kind has taken from [p]. *)
Definition overlay (k : kind) (p t : push) : push :=
  mk_push (if has_name k then pu_name p else pu_name t)
    (mk_adata (if has_info k then ad_info (pu_data p) else ad_info (pu_data t))
              (if has_perc k then ad_perc (pu_data p) else ad_perc (pu_data t))
              (if has_data k then ad_data (pu_data p) else ad_data (pu_data t))).
