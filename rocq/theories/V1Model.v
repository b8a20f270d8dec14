(** The storage format of the 0.8.0 releases ("v1"), which the server reads once when it upgrades a data
    directory: the system log (storage/v1/raw/journal), the data files (storage/v1/raw/batch_jrnl), the
    account file (storage/v1/raw/sysdb.rs).

    Files are the bytes after their header. Simplifications: reads of an ordinary file return as many
    bytes as are there; memory allocation never fails; counters do not wrap at 2^64. Where a debug build
    stops on an arithmetic overflow the release build is modelled. *)
From Coq Require Import Arith NArith Bool Strings.String.
From Coq Require Import List.
From Verif Require Import Bytes AMap DataModel CodecModel CrcModel GnsCodecModel GnsModel RowModel BatchModel.
Import ListNotations.
Local Open Scope N_scope.

(** ** The system log *)

(** [JournalEntryMetadata], storage/v1/raw/journal/raw.rs:96-103 *)
Record jmeta := mk_jm { jm_id : N; jm_src : N; jm_crc : N; jm_len : N }.

(** [EventSourceMarker], raw.rs:155-160 *)
Definition SRC_SERVER : N := 9223372036854775808.
(** raw.rs:155-160 *)
Definition SRC_CLOSED : N := 0.
(** raw.rs:155-160 *)
Definition SRC_REOPENED : N := 1.
(** raw.rs:155-160 *)
Definition SRC_RECOVERY : N := 2.

(** [encoded] and [decode], raw.rs:105-133 *)
Definition enc_jm (m : jmeta) : bytes :=
  u128_le (jm_id m) ++ u64_le (jm_src m) ++ le_enc 4 (jm_crc m) ++ u64_le (jm_len m).
(** [decode], raw.rs:105-133 *)
Definition dec_jm (b : bytes) : jmeta :=
  mk_jm (le_dec (firstn 16 b)) (le_dec (firstn 8 (skipn 16 b)))
    (le_dec (firstn 4 (skipn 24 b))) (le_dec (firstn 8 (skipn 28 b))).

(** what the adapter does with a payload: it changed the state; it failed (having possibly changed the
    state); the process is gone *)
Inductive vupd (G : Type) := VuOk (g : G) | VuErr (g : G) | VuDie.
Arguments VuOk {G}. Arguments VuErr {G}. Arguments VuDie {G}.

(** outcome of reading a file *)
Inductive vres (A : Type) := VrOk (a : A) | VrErr | VrDie | VrFuel.
Arguments VrOk {A}. Arguments VrErr {A}. Arguments VrDie {A}. Arguments VrFuel {A}.

(** [CRC], raw.rs:59: the catalogue entry CRC-32/ISO-HDLC of crate [crc] (reflected polynomial
    0xEDB88320, initial value and final xor all ones), bit by bit *)
Definition crc32i_bit (s : N) : N := if N.odd s then N.lxor (N.div2 s) 0xEDB88320 else N.div2 s.
(** raw.rs:59, as above *)
Definition crc32i_byte (s : N) (b : byte) : N :=
  crc32i_bit (crc32i_bit (crc32i_bit (crc32i_bit (crc32i_bit (crc32i_bit (crc32i_bit (crc32i_bit
    (N.lxor s (b2n b))))))))).
(** raw.rs:59, as above *)
Definition crc32i (l : bytes) : N := N.lxor (fold_left crc32i_byte l 0xFFFFFFFF) 0xFFFFFFFF.

Section Log.
(** the checksum; the theorems hold for any function *)
Variable crc32 : bytes -> N.
(** size of a [BufReader]'s buffer (standard library) *)
Variable cap : nat.
Variable G : Type.
Variable upd : bytes -> G -> vupd G.
(** the log after its header *)
Variable file : bytes.

(** [JournalReader], raw.rs:176-182, with its [BufferedReader] (storage/common/interface/fs.rs:451-503):
    bytes buffered and not yet read, position of the underlying file. [remaining_bytes] is the length of
    [v_stream] (see V1LogProofs.v). *)
Record v1r := mk_v1r { r_buf : bytes; r_in : nat; r_id : N; r_closed : bool; r_g : G }.

(** what further reads return *)
Definition v_stream (r : v1r) : bytes := r_buf r ++ skipn (r_in r) file.

(** [read_exact] of a buffered reader (standard library), with the length check of
    [logfile_read_into_buffer], raw.rs:331-340: a request for at least a buffer's worth bypasses the
    buffer *)
Definition v_read (n : nat) (r : v1r) : option (bytes * v1r) :=
  if (n <=? List.length (r_buf r))%nat
  then Some (firstn n (r_buf r), mk_v1r (skipn n (r_buf r)) (r_in r) (r_id r) (r_closed r) (r_g r))
  else
    let m := (n - List.length (r_buf r))%nat in
    let rest := skipn (r_in r) file in
    if (List.length rest <? m)%nat then None
    else if (cap <=? m)%nat
    then Some (r_buf r ++ firstn m rest, mk_v1r [] (r_in r + m) (r_id r) (r_closed r) (r_g r))
    else
      let chunk := firstn cap rest in
      Some (r_buf r ++ firstn m chunk,
            mk_v1r (skipn m chunk) (r_in r + List.length chunk) (r_id r) (r_closed r) (r_g r)).

(** [_incr_evid], raw.rs:313-315 *)
Definition v_incr (r : v1r) : v1r := mk_v1r (r_buf r) (r_in r) (r_id r + 1) (r_closed r) (r_g r).
(** the state after the adapter ran, raw.rs:244 *)
Definition v_setg (g : G) (r : v1r) : v1r := mk_v1r (r_buf r) (r_in r) (r_id r) (r_closed r) g.

(** moving back before a recovery, raw.rs:209-213: [file_cursor] and [seek_from_start] act on the file
    under the buffer (fs.rs:239-246, 281-291), so the bytes already buffered stay where they are *)
Definition v_back (r : v1r) : v1r := mk_v1r (r_buf r) (r_in r - 36) (r_id r) (r_closed r) (r_g r).

(** [try_recover_journal_strategy_simple_reverse], raw.rs:277-295 *)
Definition v_recover (r : v1r) : vres v1r :=
  match v_read 36 r with
  | None => VrErr
  | Some (b, r1) =>
      let m := dec_jm b in
      if (jm_id m =? r_id r) && (jm_crc m =? 0) && (jm_len m =? 0) && (jm_src m =? SRC_RECOVERY)
      then VrOk (v_incr r1) else VrErr
  end.

(** [handle_driver_reopen], raw.rs:252-271 *)
Definition v_reopen (r : v1r) : vres v1r :=
  match v_read 36 r with
  | None => VrErr
  | Some (b, r1) =>
      let m := dec_jm b in
      if (jm_id m mod two64 =? r_id r) && (jm_crc m =? 0) && (jm_len m =? 0) && (jm_src m =? SRC_REOPENED)
      then VrOk (v_incr r1) else VrErr
  end.

(** [rapply_next_event], raw.rs:196-250 *)
Definition v_next (r : v1r) : vres v1r :=
  match v_read 36 r with
  | None => VrErr
  | Some (b, r1) =>
      let m := dec_jm b in
      if negb (r_id r =? jm_id m mod two64) then v_recover (v_back r1)
      else if jm_src m =? SRC_SERVER then
        if len (v_stream r1) <? jm_len m then v_recover r1
        else match v_read (N.to_nat (jm_len m)) r1 with
             | None => VrErr
             | Some (p, r2) =>
                 if negb (crc32 p =? jm_crc m) then v_recover r2
                 else match upd p (r_g r2) with
                      | VuOk g => VrOk (v_incr (v_setg g r2))
                      | VuErr g => v_recover (v_setg g r2)
                      | VuDie => VrDie
                      end
             end
      else if jm_src m =? SRC_CLOSED then
        match v_stream r1 with
        | [] => VrOk (mk_v1r (r_buf r1) (r_in r1) (r_id r1) true (r_g r1))
        | _ => v_reopen r1
        end
      else VrErr
  end.

(** the loop of [scroll], raw.rs:297-310 *)
Fixpoint v_loop (fuel : nat) (r : v1r) : vres (G * N) :=
  match v_stream r with
  | [] => if r_closed r then VrOk (r_g r, r_id r) else VrErr
  | _ =>
      match fuel with
      | O => VrFuel
      | S f =>
          match v_next r with
          | VrOk r' => v_loop f r'
          | VrErr => VrErr | VrDie => VrDie | VrFuel => VrFuel
          end
      end
  end.

(** [scroll]: the state and the next record's number *)
Definition v_scroll (g : G) : vres (G * N) :=
  v_loop (S (List.length file)) (mk_v1r [] 0 0 false g).
End Log.

Arguments r_buf {G}. Arguments r_in {G}. Arguments r_id {G}. Arguments r_closed {G}. Arguments r_g {G}.
Arguments mk_v1r {G}.

(** [append_journal_reopen] and [__close_mut], raw.rs:370-387: a record without payload *)
Definition v_mark (id src : N) : bytes := enc_jm (mk_jm id src 0 0).

(** [GNSAdapter::decode_and_update_state], storage/v1/raw/journal/mod.rs:55-84. The table has nine
    entries and the opcode is cut off at nine, so larger opcodes index it out of bounds. Simplification:
    an event that fails while it is applied leaves the namespace as it was (one with bytes left over has
    been applied). Undefined behaviour while decoding counts as gone. *)
Definition v1_gns_upd (utf8 : bytes -> bool) (p : bytes) (n : ns) : vupd ns :=
  match take 2 p with
  | None => VuErr n
  | Some (o, l) =>
      let opc := le_dec o in
      if opc <? 8 then
        match dec_event_body utf8 opc l with
        | ROk (e, l') =>
            match apply_event n e with
            | None => VuErr n
            | Some n' => match l' with [] => VuOk n' | _ => VuErr n' end
            end
        | RErr => VuErr n
        | _ => VuDie
        end
      else if opc =? 8 then VuErr n
      else VuDie
  end.

(** ** The data files *)

(** markers, storage/v1/raw/batch_jrnl/mod.rs:31-40 *)
Definition MK_REOPEN : byte := xfb.
(** storage/v1/raw/batch_jrnl/mod.rs:31-40 *)
Definition MK_CLOSED : byte := xfc.
(** storage/v1/raw/batch_jrnl/mod.rs:31-40 *)
Definition MK_END : byte := xfd.
(** storage/v1/raw/batch_jrnl/mod.rs:31-40 *)
Definition MK_BATCH : byte := xfe.
(** storage/v1/raw/batch_jrnl/mod.rs:31-40 *)
Definition MK_RECOVERY : byte := xff.

(** result of a read: the unread bytes are kept on an error too, as the recovery goes on from there. A
    read that asks for more than is left consumes nothing (storage/v1/raw/rw.rs:96-113). *)
Inductive pr (A : Type) := POk (a : A) (l : bytes) | PErr (l : bytes) | PUb.
Arguments POk {A}. Arguments PErr {A}. Arguments PUb {A}.
(** the [?] operator on reads *)
Definition pbind {A B} (x : pr A) (f : A -> bytes -> pr B) : pr B :=
  match x with POk a l => f a l | PErr l => PErr l | PUb => PUb end.
Notation "'let+' ( a , l ) := x 'in' k" := (pbind x (fun a l => k))
  (at level 200, a name, l name, x at level 100, k at level 200).

(** [read_byte], [read_u64_le], [tracked_read]: rw.rs:86-128 *)
Definition p_byte (l : bytes) : pr byte := match l with [] => PErr [] | b :: l' => POk b l' end.
(** [read_u64_le], rw.rs:86-128 *)
Definition p_u64 (l : bytes) : pr N := match take 8 l with Some (b, l') => POk (le_dec b) l' | None => PErr l end.
(** [tracked_read], rw.rs:86-128 *)
Definition p_block (n : N) (l : bytes) : pr bytes :=
  match takeN n l with Some (b, l') => POk b l' | None => PErr l end.

Section Data.
Variable utf8 : bytes -> bool. (* [str::from_utf8] *)

(** where [decode_element] stops when it fails, storage/common_encoding/r1/obj.rs:180-242; the same
    control flow as [dec_elem], which gives its result *)
Fixpoint fail_elem (fuel : nat) (dscr : N) (l : bytes) {struct fuel} : bytes :=
  match fuel with
  | O => l
  | S f =>
    if dscr =? 15 then l else
    match tsel_of_code (dscr - 1) with
    | Some TsBool => match l with [] => l | _ :: l1 => l1 end
    | Some TsBin | Some TsStr =>
        match take 8 l with
        | None => l
        | Some (n, l1) => match takeN (le_dec n) l1 with None => l1 | Some (_, l2) => l2 end
        end
    | Some TsList => match take 8 l with None => l | Some (n, l1) => fail_items f (le_dec n) l1 end
    | _ => l
    end
  end
with fail_items (fuel : nat) (n : N) (l : bytes) {struct fuel} : bytes :=
  match fuel with
  | O => l
  | S f =>
    match l with
    | [] => l
    | b :: l1 =>
        let d := b2n b in
        if negb (dscr_valid d) then l1 else
        if negb (has_left (expect_atleast d) l1) then l1 else
        match dec_elem utf8 SrcRead f d l1 with
        | ROk (_, l2) => fail_items f (n - 1) l2
        | _ => fail_elem f d l1
        end
    end
  end.

(** [decode_cell], storage/v1/raw/batch_jrnl/restore.rs:497-503 *)
Definition p_cell (l : bytes) : pr cell :=
  let+ (b, l1) := p_byte l in
  if negb (dscr_valid (b2n b)) then PErr l1 else
  match dec_cell utf8 SrcRead (b2n b) l1 with
  | ROk (c, l2) => POk c l2
  | RErr => PErr (fail_elem (S (List.length l1)) (b2n b) l1)
  | _ => PUb
  end.

(** [decode_primary_key], restore.rs:464-496. [TagUnique::try_from_raw] lets every byte through
    (see [dec_tuniq] in BatchModel.v). *)
Definition p_pkey (tag : byte) (l : bytes) : pr pkey :=
  match dec_tuniq tag with
  | ROk TuUInt => let+ (w, l1) := p_u64 l in POk (PkUInt w) l1
  | ROk TuSInt => let+ (w, l1) := p_u64 l in POk (PkSInt w) l1
  | ROk TuBin => let+ (n, l1) := p_u64 l in let+ (b, l2) := p_block n l1 in POk (PkBin b) l2
  | ROk TuStr => let+ (n, l1) := p_u64 l in let+ (b, l2) := p_block n l1 in
                 if utf8 b then POk (PkStr b) l2 else PErr l2
  | _ => PUb
  end.

(** the cells of a row, restore.rs:365-372; [n] cells are still missing *)
Fixpoint p_cells (fuel : nat) (n : N) (l : bytes) : pr (list cell) :=
  match fuel with
  | O => PErr l
  | S f =>
      if n =? 0 then POk [] l else
      match l with
      | [] => PErr l
      | _ => let+ (c, l1) := p_cell l in let+ (cs, l2) := p_cells f (n - 1) l1 in POk (c :: cs) l2
      end
  end.

(** the loop of [read_batch], restore.rs:343-404: the events, and whether the end mark was found early *)
Fixpoint p_evs (fuel : nat) (tag : byte) (cols n : N) (l : bytes) : pr (list bev * bool) :=
  match fuel with
  | O => PErr l
  | S f =>
      if n =? 0 then POk ([], false) l else
      match l with
      | [] => POk ([], false) l
      | k :: l1 =>
          if beq k MK_END then POk ([], true) l1 else
          let+ (txn, l2) := p_u64 l1 in
          match b2n k with
          | 0 =>
              let+ (key, l3) := p_pkey tag l2 in
              let+ (es, l4) := p_evs f tag cols (n - 1) l3 in
              POk (mk_bev DkDelete txn key [] :: fst es, snd es) l4
          | 1 | 2 =>
              let+ (key, l3) := p_pkey tag l2 in
              let+ (cs, l4) := p_cells (S (List.length l3)) cols l3 in
              let+ (es, l5) := p_evs f tag cols (n - 1) l4 in
              POk (mk_bev (if b2n k =? 1 then DkInsert else DkUpdate) txn key cs :: fst es, snd es) l5
          | _ => PErr l2
          end
      end
  end.

(** [Batch], restore.rs:104-109; a batch's schema version and events *)
Inductive v1batch := BtRecovered | BtClosed | BtEvents (early : bool) (sv : N) (es : list bev).

(** [read_batch] with [read_start_batch_block], restore.rs:320-429 *)
Definition p_batch (l : bytes) : pr v1batch :=
  let+ (k, l1) := p_byte l in
  if beq k MK_BATCH then
    let+ (tag, l2) := p_byte l1 in
    let+ (want, l3) := p_u64 l2 in
    let+ (sv, l4) := p_u64 l3 in
    let+ (cols, l5) := p_u64 l4 in
    let+ (es, l6) := p_evs (S (List.length l5)) tag cols want l5 in
    POk (BtEvents (snd es) sv (fst es)) l6
  else if beq k MK_RECOVERY then POk BtRecovered l1
  else if beq k MK_CLOSED then POk BtClosed l1
  else PErr l1.

(** [read_batch_summary], restore.rs:299-319; [l0] is where the batch began (the checksum is reset
    there, restore.rs:143) *)
Definition p_summary (l0 : bytes) (early : bool) (l : bytes) : pr N :=
  let+ (_u, l1) := (if early then POk x00 l
                    else let+ (b, l1) := p_byte l in if beq b MK_END then POk b l1 else PErr l1) in
  let+ (n, l2) := p_u64 l1 in
  match take 8 l2 with
  | None => PErr l2
  | Some (ck, l3) =>
      if crc64 (firstn (List.length l0 - List.length l2) l0) =? le_dec ck then POk n l3 else PErr l3
  end.

Variable S : Type.
(** what is done with a batch; [None]: panic *)
Variable apply : S -> N -> list bev -> option S.

(** [read_all_batches_and_for_each], with [handle_reopen_is_actual_close] and
    [attempt_recover_data_batch]: restore.rs:136-200, 410-417 *)
Fixpoint p_file (fuel : nat) (s : S) (l : bytes) : vres S :=
  match fuel with
  | O => VrFuel
  | Datatypes.S f =>
      let recover l1 :=
        match l1 with
        | [] => VrErr
        | b :: l2 => if beq b MK_RECOVERY then p_file f s l2 else VrErr
        end in
      match l with
      | [] => VrErr
      | _ =>
          match p_batch l with
          | PUb => VrDie
          | PErr l1 => recover l1
          | POk BtRecovered l1 => p_file f s l1
          | POk BtClosed l1 =>
              match l1 with
              | [] => VrOk s
              | b :: l2 => if beq b MK_REOPEN then p_file f s l2 else VrErr
              end
          | POk (BtEvents early sv es) l1 =>
              match p_summary l early l1 with
              | PUb => VrDie
              | PErr l2 => recover l2
              | POk n l2 =>
                  if negb (N.of_nat (List.length es) =? n) then recover l2
                  else match apply s sv es with
                       | None => VrDie
                       | Some s' => p_file f s' l2
                       end
              end
          end
      end
  end.
(** restore.rs:136-200, 410-440, as above *)
Definition v1_read_file (s : S) (l : bytes) : vres S := p_file (Datatypes.S (List.length l)) s l.
End Data.
Arguments p_file utf8 {S}. Arguments v1_read_file utf8 {S}.

(** ** Applying a batch: [apply_batch], restore.rs:204-295 *)

(** an insert or update, 219-256: a row with a larger number stays (its schema deltas are applied) *)
Definition v1_put (sv : N) (s : mst) (e : bev) : mst :=
  let put :=
    let row := mk_row (be_key e) (zip_cells (col_names (m_lay s)) (be_cells e)) (be_txn e) (N.to_nat sv) in
    set_idx (aput pkey_eqb (be_key e) (List.length (m_objs s)) (adel pkey_eqb (be_key e) (m_idx s)))
      (set_objs (m_objs s ++ [resolve (m_sd s) row]) s) in
  match aget pkey_eqb (be_key e) (m_idx s) with
  | None => put
  | Some i =>
      match nth_error (m_objs s) i with
      | None => put
      | Some o => if be_txn e <? ro_rev o
                  then set_objs (upd_nth i (resolve (m_sd s) o) (m_objs s)) s
                  else put
      end
  end.

(** the scan of the events, 217-276; deletions are collected as in [fin_del] *)
Fixpoint v1_scan (sv : N) (s : mst) (p : list (pkey * N)) (es : list bev) : mst * list (pkey * N) :=
  match es with
  | [] => (s, p)
  | e :: es' =>
      match be_kind e with
      | DkDelete => v1_scan sv s (fin_del p e) es'
      | _ => v1_scan sv (v1_put sv s e) p es'
      end
  end.

(** the deletions, 277-293, run in the arbitrary order of a hash map (their keys differ). [None] is the
    [unreachable!] of 290. *)
Fixpoint v1_drops (s : mst) (p : list (pkey * N)) : option mst :=
  match p with
  | [] => Some s
  | kt :: p' =>
      match aget pkey_eqb (fst kt) (m_idx s) with
      | None => None
      | Some _ => v1_drops (fin_drop s kt) p'
      end
  end.

(** a batch; the model's change counter is not touched *)
Definition v1_apply (s : mst) (sv : N) (es : list bev) : option mst :=
  let '(s1, p) := v1_scan sv s [] es in v1_drops s1 p.

(** all batches of a file in order *)
Fixpoint v1_apply_all (s : mst) (l : list (N * list bev)) : option mst :=
  match l with
  | [] => Some s
  | b :: l' => match v1_apply s (fst b) (snd b) with None => None | Some s' => v1_apply_all s' l' end
  end.

(** ** The account file *)

(** [rkey], storage/v1/raw/sysdb.rs:38-47: the entry is taken out of the dictionary *)
Definition dict_take (k : bytes) (d : dict) : option (dentry * dict) :=
  match aget bseq k d with Some e => Some (e, adel bseq k d) | None => None end.
(** [DictEntryGeneric::into_dict], data/dict.rs:49-54 *)
Definition as_dict (e : dentry) : option dict := match e with DMap m => Some m | DData _ => None end.
(** [Datacell::into_uint] on a data entry, data/cell.rs:104-113: the tag's class is checked *)
Definition as_uint (e : dentry) : option N :=
  match e with
  | DData (CQw (QU8 | QU16 | QU32 | QU64) w) => Some w
  | _ => None
  end.
(** a user's entry, sysdb.rs:91-103: a list of exactly one binary *)
Definition as_user (e : dentry) : option bytes :=
  match e with DData (CList [CBin h]) => Some h | _ => None end.

(** the loop over the users, sysdb.rs:89-104 *)
Fixpoint users_of (d : dict) : option (list (bytes * bytes)) :=
  match d with
  | [] => Some []
  | (u, e) :: d' =>
      match as_user e, users_of d' with
      | Some h, Some us => Some ((u, h) :: us)
      | _, _ => None
      end
  end.

(** [SystemDatabase::ROOT_ACCOUNT], core/system_db.rs:73 *)
Definition root_account : bytes := bstr "root".

Notation "'let?' x := e 'in' k" := (match e with Some x => k | None => None end)
  (at level 200, x pattern, e at level 100, k at level 200).

(** [RestoredSystemDatabase::restore] after decoding, sysdb.rs:74-123: the accounts, the start counter,
    the settings' version *)
Definition sysdb_parse (d : dict) : option (list (bytes * bytes) * N * N) :=
  let? (a, d1) := dict_take (bstr "auth") d in
  let? auth := as_dict a in
  let? (s, d2) := dict_take (bstr "sys") d1 in
  let? sys := as_dict s in
  let? (u, auth1) := dict_take (bstr "users") auth in
  let? ud := as_dict u in
  let? us := users_of ud in
  let? (c, sys1) := dict_take (bstr "sc") sys in
  let? sc := as_uint c in
  let? (v, sys2) := dict_take (bstr "sv") sys1 in
  let? sv := as_uint v in
  match d2, auth1, sys2 with
  | [], [], [] => match aget bseq root_account us with Some _ => Some (us, sc, sv) | None => None end
  | _, _, _ => None
  end.

(** with the decoding, sysdb.rs:75-77: bytes after the dictionary are ignored
    ([dict_full], storage/common_encoding/r1/mod.rs:264-272) *)
Definition sysdb_restore (utf8 : bytes -> bool) (l : bytes) : vres (list (bytes * bytes) * N * N) :=
  match dec_dict_full utf8 l with
  | ROk (d, _) => match sysdb_parse d with Some x => VrOk x | None => VrErr end
  | RErr => VrErr
  | _ => VrDie
  end.
