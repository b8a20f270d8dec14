(** Payload codec of the system log (GNS) events:
    storage/common_encoding/r1/impls/gns/{mod,space,model}.rs, storage/common_encoding/r2.rs,
    dispatch in storage/v2/impls/gns_log.rs. *)
From Coq Require Import List NArith Bool.
From Verif Require Import Bytes DataModel CodecModel.
Import ListNotations.
Local Open Scope N_scope.

(** [SpaceIDRef]/[SpaceIDRes], gns/mod.rs:94-98 *)
Record space_id := mk_sid { sid_uuid : N; sid_name : bytes }.

(** [ModelIDRef]/[ModelIDRes], gns/model.rs:57-63 *)
Record model_id := mk_mid {
  mid_space : space_id; mid_name : bytes; mid_version : N; mid_uuid : N
}.

(** The eleven transactions of the system log (txn/gns/{space,model,sysctl}.rs) with the data that
    is written. [EvAlterModelUpdate]'s fields come from a hash map; they are listed in its iteration
    order. *)
Inductive gns_event :=
| EvCreateSpace (name : bytes) (sp : space_layout)
| EvAlterSpace (sid : space_id) (props : dict)
| EvDropSpace (sid : space_id)
| EvCreateModel (sid : space_id) (name : bytes) (m : layout)
| EvAlterModelAdd (mid : model_id) (fs : fieldmap)
| EvAlterModelRemove (mid : model_id) (fs : list bytes)
| EvAlterModelUpdate (mid : model_id) (fs : fieldmap)
| EvDropModel (mid : model_id)
| EvCreateUser (name : bytes) (hash : bytes)
| EvAlterUser (name : bytes) (hash : bytes)
| EvDropUser (name : bytes).

(** [GNSTransactionCode], txn/gns/mod.rs:37-51, and the [CODE] of each transaction
    (txn/gns/space.rs:29, txn/gns/model.rs [impl_gns_event], txn/gns/sysctl.rs:83) *)
Definition ev_code (e : gns_event) : N :=
  match e with
  | EvCreateSpace _ _ => 0 | EvAlterSpace _ _ => 1 | EvDropSpace _ => 2
  | EvCreateModel _ _ _ => 3 | EvAlterModelAdd _ _ => 4 | EvAlterModelRemove _ _ => 5
  | EvAlterModelUpdate _ _ => 6 | EvDropModel _ => 7
  | EvCreateUser _ _ => 8 | EvAlterUser _ _ => 9 | EvDropUser _ => 10
  end.

(** [SpaceID::meta_enc], gns/mod.rs:120-123 *)
Definition enc_sid_meta (s : space_id) : bytes := u128_le (sid_uuid s) ++ u64_le (len (sid_name s)).
(** [SpaceID::obj_enc], gns/mod.rs:130-132 *)
Definition enc_sid_obj (s : space_id) : bytes := sid_name s.

(** [ModelID::meta_enc], gns/model.rs:97-102 *)
Definition enc_mid_meta (m : model_id) : bytes :=
  enc_sid_meta (mid_space m) ++ u64_le (len (mid_name m)) ++ u64_le (mid_version m)
    ++ u128_le (mid_uuid m).
(** [ModelID::obj_enc], gns/model.rs:111-114 *)
Definition enc_mid_obj (m : model_id) : bytes := enc_sid_obj (mid_space m) ++ mid_name m.

(** removed field names, gns/model.rs:411-417 *)
Definition enc_names (l : list bytes) : bytes := concat (map (fun n => u64_le (len n) ++ n) l).

(** [GNSEvent::encode_event] = [meta_enc] then [obj_enc] (r1/mod.rs:122-125):
    space.rs:68-89, 141-157, 210-218; model.rs:207-238, 319-337, 400-417, 490-507, 564-573;
    r2.rs:99-114, 159-174, 221-229 *)
Definition enc_event (e : gns_event) : bytes :=
  match e with
  | EvCreateSpace name sp =>
      (u64_le (len name) ++ u128_le (sl_uuid sp) ++ u64_le (N.of_nat (length (sl_props sp))))
      ++ name ++ enc_dict_obj (sl_props sp)
  | EvAlterSpace sid props =>
      (enc_sid_meta sid ++ u64_le (N.of_nat (length props))) ++ enc_sid_obj sid ++ enc_dict_obj props
  | EvDropSpace sid => enc_sid_meta sid ++ enc_sid_obj sid
  | EvCreateModel sid name m =>
      (enc_sid_meta sid ++ u64_le (len name) ++ enc_layout_meta m)
      ++ enc_sid_obj sid ++ name ++ enc_layout_obj m
  | EvAlterModelAdd mid fs | EvAlterModelUpdate mid fs =>
      (enc_mid_meta mid ++ u64_le (N.of_nat (length fs))) ++ enc_mid_obj mid ++ enc_fields fs
  | EvAlterModelRemove mid fs =>
      (enc_mid_meta mid ++ u64_le (N.of_nat (length fs))) ++ enc_mid_obj mid ++ enc_names fs
  | EvDropModel mid => enc_mid_meta mid ++ enc_mid_obj mid
  | EvCreateUser name hash | EvAlterUser name hash =>
      (u64_le (len name) ++ u64_le (len hash) ++ u64_le 0) ++ name ++ hash
  | EvDropUser name => u64_le (len name) ++ name
  end.

(** [next_chunk::<16>] into a uuid: unchecked, gns/mod.rs:126, gns/model.rs:108 *)
Definition rd_u128 (l : bytes) : res (N * bytes) :=
  match take 16 l with None => RUb | Some (a, l') => ROk (le_dec a, l') end.

(** [usize]/[u64] addition in the pretests; wraps in release builds
    (gns/model.rs:94-96, 206, 314-318, r2.rs:96-98) *)
Definition wadd (a b : N) : N := (a + b) mod two64.

Section Dec.
Variable utf8 : bytes -> bool.

(** [dec::utils::decode_string], r1/mod.rs:273-282 *)
Definition rd_string (n : N) (l : bytes) : res (bytes * bytes) :=
  let* (b, l1) := rd_block SrcScan n l in
  if utf8 b then ROk (b, l1) else RErr.

(** [SpaceIDMD], gns/mod.rs:107-110 *)
Record sid_md := mk_sid_md { sm_uuid : N; sm_len : N }.
(** [SpaceID::meta_dec], gns/mod.rs:124-129 *)
Definition dec_sid_meta (l : bytes) : res (sid_md * bytes) :=
  let* (u, l1) := rd_u128 l in
  let* (n, l2) := rd_u64 SrcScan l1 in
  ROk (mk_sid_md u n, l2).
(** [SpaceID::obj_dec], gns/mod.rs:133-142 *)
Definition dec_sid_obj (md : sid_md) (l : bytes) : res (space_id * bytes) :=
  let* (n, l1) := rd_string (sm_len md) l in
  ROk (mk_sid (sm_uuid md) n, l1).

(** [ModelIDMD], gns/model.rs:81-86 *)
Record mid_md := mk_mid_md { mm_space : sid_md; mm_len : N; mm_version : N; mm_uuid : N }.
(** [ModelID::meta_dec], gns/model.rs:103-110 *)
Definition dec_mid_meta (l : bytes) : res (mid_md * bytes) :=
  let* (s, l1) := dec_sid_meta l in
  let* (n, l2) := rd_u64 SrcScan l1 in
  let* (v, l3) := rd_u64 SrcScan l2 in
  let* (u, l4) := rd_u128 l3 in
  ROk (mk_mid_md s n v u, l4).
(** [ModelID::obj_dec], gns/model.rs:115-126 *)
Definition dec_mid_obj (md : mid_md) (l : bytes) : res (model_id * bytes) :=
  let* (s, l1) := dec_sid_obj (mm_space md) l in
  let* (n, l2) := rd_string (mm_len md) l1 in
  ROk (mk_mid s n (mm_version md) (mm_uuid md), l2).

(** loop of [AlterModelRemoveTxn::obj_dec], gns/model.rs:423-436; [n] is the number of names still
    missing; the trailing count test (433) is [n =? 0]. *)
Fixpoint dec_names (fuel : nat) (n : N) (l : bytes) : res (list bytes * bytes) :=
  match fuel with
  | O => RFuel
  | S f =>
    if n =? 0 then ROk ([], l) else
    if negb (has_left 8 l) then RErr else
    let* (k, l1) := rd_u64 SrcScan l in
    if negb (has_left k l1) then RErr else
    let* (s, l2) := rd_string k l1 in
    let* (ss, l3) := dec_names f (n - 1) l2 in
    ROk (s :: ss, l3)
  end.

(** [default_full_dec] of the user-definition payload, r2.rs:91-129 and 151-190 *)
Definition dec_user (l : bytes) : res (bytes * bytes * bytes) :=
  if negb (has_left 24 l) then RErr else
  let* (ul, l1) := rd_u64 SrcScan l in
  let* (pl, l2) := rd_u64 SrcScan l1 in
  let* (props, l3) := rd_u64 SrcScan l2 in
  if negb (has_left (wadd ul pl) l3) then RErr else
  let* (u, l4) := rd_string ul l3 in
  let* (p, l5) := rd_block SrcScan pl l4 in
  if props =? 0 then ROk (u, p, l5) else RErr.

(** [default_full_dec] of an event given its code (r1/mod.rs:127-142), one branch per impl *)
Definition dec_event_body (code : N) (l : bytes) : res (gns_event * bytes) :=
  match code with
  | 0 => (* space.rs:59-98 *)
      if negb (has_left 32 l) then RErr else
      let* (n, l1) := rd_u64 SrcScan l in
      let* (u, l2) := rd_u128 l1 in
      let* (c, l3) := rd_u64 SrcScan l2 in
      if negb (has_left n l3) then RErr else
      let* (name, l4) := rd_string n l3 in
      let* (d, l5) := dec_dict_obj utf8 c l4 in
      ROk (EvCreateSpace name (mk_space_layout u d), l5)
  | 1 => (* space.rs:133-172 *)
      if negb (has_left 32 l) then RErr else
      let* (smd, l1) := dec_sid_meta l in
      let* (c, l2) := rd_u64 SrcScan l1 in
      if negb (has_left (sm_len smd) l2) then RErr else
      let* (sid, l3) := dec_sid_obj smd l2 in
      let* (d, l4) := dec_dict_obj utf8 c l3 in
      ROk (EvAlterSpace sid d, l4)
  | 2 => (* space.rs:202-225 *)
      if negb (has_left 24 l) then RErr else
      let* (smd, l1) := dec_sid_meta l in
      if negb (has_left (sm_len smd) l1) then RErr else
      let* (sid, l2) := dec_sid_obj smd l1 in
      ROk (EvDropSpace sid, l2)
  | 3 => (* model.rs:197-253; the space name length is not part of the pretest (206) *)
      if negb (has_left 72 l) then RErr else
      let* (smd, l1) := dec_sid_meta l in
      let* (n, l2) := rd_u64 SrcScan l1 in
      let* (md, l3) := dec_layout_meta l2 in
      if negb (has_left (wadd (lm_pklen md) n) l3) then RErr else
      let* (sid, l4) := dec_sid_obj smd l3 in
      let* (name, l5) := rd_string n l4 in
      let* (m, l6) := dec_layout_obj utf8 md l5 in
      ROk (EvCreateModel sid name m, l6)
  | 4 => (* model.rs:309-352 *)
      if negb (has_left 64 l) then RErr else
      let* (mmd, l1) := dec_mid_meta l in
      let* (c, l2) := rd_u64 SrcScan l1 in
      if negb (has_left (wadd (sm_len (mm_space mmd)) (mm_len mmd)) l2) then RErr else
      let* (mid, l3) := dec_mid_obj mmd l2 in
      let* (fs, l4) := dec_fields utf8 c l3 in
      ROk (EvAlterModelAdd mid fs, l4)
  | 5 => (* model.rs:390-442 *)
      if negb (has_left 64 l) then RErr else
      let* (mmd, l1) := dec_mid_meta l in
      let* (c, l2) := rd_u64 SrcScan l1 in
      if negb (has_left (wadd (sm_len (mm_space mmd)) (mm_len mmd)) l2) then RErr else
      let* (mid, l3) := dec_mid_obj mmd l2 in
      let* (fs, l4) := dec_names (S (length l3)) c l3 in
      ROk (EvAlterModelRemove mid fs, l4)
  | 6 => (* model.rs:480-523 *)
      if negb (has_left 64 l) then RErr else
      let* (mmd, l1) := dec_mid_meta l in
      let* (c, l2) := rd_u64 SrcScan l1 in
      if negb (has_left (wadd (sm_len (mm_space mmd)) (mm_len mmd)) l2) then RErr else
      let* (mid, l3) := dec_mid_obj mmd l2 in
      let* (fs, l4) := dec_fields utf8 c l3 in
      ROk (EvAlterModelUpdate mid fs, l4)
  | 7 => (* model.rs:554-580 *)
      if negb (has_left 56 l) then RErr else
      let* (mmd, l1) := dec_mid_meta l in
      if negb (has_left (wadd (sm_len (mm_space mmd)) (mm_len mmd)) l1) then RErr else
      let* (mid, l2) := dec_mid_obj mmd l1 in
      ROk (EvDropModel mid, l2)
  | 8 => let* (u, p, l1) := dec_user l in ROk (EvCreateUser u p, l1)
  | 9 => let* (u, p, l1) := dec_user l in ROk (EvAlterUser u p, l1)
  | 10 => (* r2.rs:213-236 *)
      if negb (has_left 8 l) then RErr else
      let* (n, l1) := rd_u64 SrcScan l in
      if negb (has_left n l1) then RErr else
      let* (u, l2) := rd_string n l1 in
      ROk (EvDropUser u, l2)
  | _ => RErr
  end.

(** [GNSEvent::decode_apply] up to the state update, gns/mod.rs:71-79, through the dispatch table of
    gns_log.rs:89-101 indexed by the event code; trailing bytes are an error (in the code the update
    is applied before the trailing-bytes check; the caller discards the state on error). *)
Definition dec_event (code : N) (l : bytes) : res gns_event :=
  let* (e, l1) := dec_event_body code l in
  match l1 with [] => ROk e | _ => RErr end.

End Dec.
