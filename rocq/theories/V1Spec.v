(** What the files of the old format hold: an account of their contents that does not mention how they
    are read. *)
From Coq Require Import Strings.String List NArith Bool.
From Verif Require Import Bytes DataModel CodecModel CrcModel GnsCodecModel GnsModel RowModel BatchModel V1Model.
Import ListNotations.
Local Open Scope N_scope.

(** ** The system log *)
(** The life of a system log: events; events spoilt on the way to the disk, each marked by a recovery
    record; shutdowns followed by a start. *)
Inductive lop :=
| LEvent (p : bytes)              (* an event *)
| LSpoilt (c : N) (p : bytes)     (* bytes that do not match their checksum, then the recovery mark *)
| LRestart.

Section Log.
Variable crc32 : bytes -> N.

(** one record with a payload *)
Definition l_record (id c : N) (p : bytes) : bytes := enc_jm (mk_jm id SRC_SERVER c (len p)) ++ p.

Definition lop_bytes (id : N) (o : lop) : bytes :=
  match o with
  | LEvent p => l_record id (crc32 p) p
  | LSpoilt c p => l_record id c p ++ v_mark id SRC_RECOVERY
  | LRestart => v_mark id SRC_CLOSED ++ v_mark id SRC_REOPENED
  end.
Fixpoint log_bytes (id : N) (l : list lop) : bytes :=
  match l with [] => [] | o :: l' => lop_bytes id o ++ log_bytes (id + 1) l' end.

(** a log the server shut down properly *)
Definition closed_log (l : list lop) : bytes :=
  log_bytes 0 l ++ v_mark (N.of_nat (length l)) SRC_CLOSED.

(** sizes fit their fields *)
Definition lop_ok (o : lop) : Prop :=
  match o with
  | LEvent p => len p < two64 /\ crc32 p < 2 ^ 32
  | LSpoilt c p => len p < two64 /\ c < 2 ^ 32 /\ crc32 p <> c
  | LRestart => True
  end.

(** the payloads that count *)
Definition payloads (l : list lop) : list bytes :=
  flat_map (fun o => match o with LEvent p => [p] | _ => [] end) l.
End Log.

(** payloads handed to an adapter one after the other, all of them taken *)
Fixpoint fed {G} (upd : bytes -> G -> vupd G) (ps : list bytes) (g : G) : option G :=
  match ps with
  | [] => Some g
  | p :: ps' => match upd p g with VuOk g' => fed upd ps' g' | _ => None end
  end.

(** an event of the system log *)
Definition ev_payload (e : gns_event) : bytes := u16_le (ev_code e) ++ enc_event e.

(** ** Data files *)
(** The life of a data file: batches (with the number of events announced, the kind of key, the schema
    version, the number of columns, the events), write attempts that failed before anything was written,
    shutdowns followed by a start. *)
Inductive fop := FBatch (b : batch) | FFailed | FRestart.

Definition v1_batch_body (b : batch) : bytes :=
  MK_BATCH :: tuniq_code (ba_tag b) :: u64_le (ba_want b) ++ u64_le (ba_schema b) ++ u64_le (ba_cols b)
    ++ concat (map enc_bev (ba_evs b)) ++ MK_END :: u64_le (ev_count b).
Definition v1_batch_bytes (b : batch) : bytes := v1_batch_body b ++ u64_le (crc64 (v1_batch_body b)).

Definition fop_bytes (o : fop) : bytes :=
  match o with
  | FBatch b => v1_batch_bytes b
  | FFailed => [MK_RECOVERY]
  | FRestart => [MK_CLOSED; MK_REOPEN]
  end.
Definition closed_data (l : list fop) : bytes := concat (map fop_bytes l) ++ [MK_CLOSED].

(** the batches in order, with their schema version *)
Definition batches (l : list fop) : list (N * list bev) :=
  flat_map (fun o => match o with FBatch b => [(ba_schema b, ba_evs b)] | _ => [] end) l.

(** ** Accounts *)
(** the account file: names with password hashes, number of starts, version of the settings; [o1] and
    [o2] are the orders in which hash maps gave out their two entries *)
Definition two {A} (o : bool) (x y : A) : list A := if o then [x; y] else [y; x].
Definition sysdb_dict (o1 o2 : bool) (us : list (bytes * bytes)) (sc sv : N) : dict :=
  two o1 (bstr "auth", DMap [(bstr "users", DMap (map (fun kv => (fst kv, DData (CList [CBin (snd kv)]))) us))])
         (bstr "sys", DMap (two o2 (bstr "sc", DData (CQw QU64 sc)) (bstr "sv", DData (CQw QU64 sv)))).
