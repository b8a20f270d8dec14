(** The journal: storage/v2/raw/journal/raw/mod.rs and the event-log adapter of
    storage/v2/raw/journal/mod.rs. *)
From Coq Require Import List NArith Bool.
From Verif Require Import Bytes CrcModel WriterModel HeaderModel.
Import ListNotations.
Local Open Scope N_scope.

(** [DriverEventKind], raw/mod.rs:453-458 *)
Inductive dkind := DReopened | DClosed.
(** discriminants, raw/mod.rs:456-457 *)
Definition dkind_code (k : dkind) : N := match k with DReopened => 0 | DClosed => 1 end.

(** [SERVER_EV_MASK], raw/mod.rs:495 *)
Definition server_ev_mask : N := 9223372036854775808.

(** [DriverEvent], raw/mod.rs:297-305 (the checksum and payload length are implied) *)
Record dev := mk_dev { d_txn : N; d_kind : dkind; d_lck : N; d_loff : N; d_ltxn : N }.

(** bytes 32..64 of a driver event, raw/mod.rs:396-399: payload length, last checksum, last offset, last txn id *)
Definition dev_payload (lck loff ltxn : N) : bytes :=
  u64_le 3 ++ u64_le lck ++ u64_le loff ++ u64_le ltxn.

(** [DriverEvent::encode], raw/mod.rs:382-404 *)
Definition enc_dev (txn : N) (k : dkind) (lck loff ltxn : N) : bytes :=
  u128_le txn ++ u64_le (dkind_code k)
  ++ u64_le (crc64 (dev_payload lck loff ltxn)) ++ dev_payload lck loff ltxn.

(** [DriverEvent::decode], raw/mod.rs:405-450; the argument is the 64-byte block *)
Definition dec_dev (l : bytes) : option dev :=
  let kind := le_dec (seg 16 8 l) in
  let ck := le_dec (seg 24 8 l) in
  let plen := le_dec (seg 32 8 l) in
  if (1 <? kind) || negb (ck =? crc64 (seg 32 32 l)) || negb (plen =? 3) then None
  else Some (mk_dev (le_dec (seg 0 16 l)) (if kind =? 0 then DReopened else DClosed)
               (le_dec (seg 40 8 l)) (le_dec (seg 48 8 l)) (le_dec (seg 56 8 l))).

(** result of opening or scanning a journal: [JFuel] is the model's recursion bound, proved
    unreachable *)
Inductive jres (A : Type) := JOk (a : A) | JErr | JFuel.
Arguments JOk {A} a. Arguments JErr {A}. Arguments JFuel {A}.

Section Journal.
(** buffer size of the [TrackedWriter] *)
Variable cap : N.
(** [J::GlobalState] and the events of the adapter ([RawJournalAdapter], raw/mod.rs:229-279) *)
Variable G E : Type.
(** [RawJournalAdapterEvent::md], raw/mod.rs:215 *)
Variable ameta : E -> N.
(** [RawJournalAdapter::commit_direct], raw/mod.rs:255-265 (both adapters of the server use
    [CommitPreference::Direct]; the buffered preference, 531-539, is not modelled) *)
Variable acommit : tw -> E -> tw * wres.
(** [parse_event_meta] and [decode_apply], raw/mod.rs:253, 274-278: new global state and unread bytes *)
Variable adec : N -> G -> bytes -> option (G * bytes).

(** [RawJournalWriter], raw/mod.rs:472-478 *)
Record jw := mk_jw { j_w : tw; j_txn : N; j_known : N; j_koff : N }.

(** [txn_context], raw/mod.rs:585-597: the id is consumed even when the action fails *)
Definition txn_context (j : jw) (f : jw -> N -> tw * wres) : jw * wres :=
  let id := j_txn j in
  let j1 := mk_jw (j_w j) (j_txn j + 1) (j_known j) (j_koff j) in
  let '(w, r) := f j1 id in
  match r with
  | WOk => (mk_jw w (j_txn j + 1) id (w_cursor w), WOk)
  | r => (mk_jw w (j_txn j + 1) (j_known j) (j_koff j), r)
  end.

(** sequencing of writer calls with [?], raw/mod.rs:543-553 *)
Definition wseq (p : tw * wres) (f : tw -> tw * wres) : tw * wres :=
  let '(w, r) := p in match r with WOk => f w | r => (w, r) end.

(** [commit_with_ctx], raw/mod.rs:517-558, direct preference, [AUTO_SYNC_ON_EVENT_COMMIT] = true *)
Definition j_commit (j : jw) (e : E) : jw * wres :=
  txn_context j (fun j id =>
    wseq (tracked_write cap (j_w j) (u128_le id)) (fun w =>
    wseq (tracked_write cap w (u64_le (N.lor (ameta e) server_ev_mask))) (fun w =>
    wseq (acommit w e) (fun w =>
    flush_sync w)))).

(** [_commit_driver_event], raw/mod.rs:599-622 *)
Definition j_driver_event (j : jw) (k : dkind) : jw * wres :=
  txn_context j (fun j id =>
    tracked_write_through (j_w j)
      (enc_dev id k (crc_finish (w_ck (j_w j))) (j_koff j) (j_known j))).

(** [close_driver], raw/mod.rs:624-628 *)
Definition j_close (j : jw) : jw * wres := j_driver_event j DClosed.

(** [__lwt_heartbeat], raw/mod.rs:570-581 *)
Definition j_heartbeat (j : jw) : jw * bool :=
  if negb (verify_cursor (j_w j)) then (j, false)
  else if w_cursor (j_w j) =? j_koff j
  then (mk_jw (zero_buffer (j_w j)) (j_txn j) (j_known j) (j_koff j), true)
  else (j, false).

(** [RawJournalWriter::new], raw/mod.rs:499-516, with the fields of [JournalInitializer], 80-113:
    [last_txn_id()] is the id minus one, saturating *)
Definition jw_new (env : list sys) (file : bytes) (cursor ck txn loff : N) : jw * wres :=
  let j := mk_jw (tw_new env file cursor ck) txn (txn - 1) loff in
  if loff =? 0 then (j, WOk) else j_driver_event j DReopened.

(** size of the SDSS header, [HeaderV1::SIZE], sdss_r1/mod.rs:146 *)
Definition header_size : nat := 64.

(** [create_journal], raw/mod.rs:55-64; [hdr] is what [SdssFile::create] writes (see HeaderModel) *)
Definition j_create (env : list sys) (hdr : bytes) : jw * wres :=
  jw_new env hdr (N.of_nat header_size) crc_new 0 0.

(** ** Reader *)

(** [RawJournalReader], raw/mod.rs:636-643, with the [TrackedReader] (rw.rs:151-156): [r_rest] are the
    unread bytes ([len - cursor] of them), [r_crc] is the digest; [r_gs] is the global state
    built so far. Statistics are dropped. *)
Record rd := mk_rd {
  r_rest : bytes; r_cur : N; r_crc : N;
  r_txn : N; r_last : N; r_loff : N; r_lck : N; r_gs : G
}.

(** [tracked_read]/[read_block], rw.rs:210-212, 227-248: fails when fewer than [n] bytes remain *)
Definition r_read (n : nat) (r : rd) : option (bytes * rd) :=
  match take n (r_rest r) with
  | None => None
  | Some (b, rest) =>
      Some (b, mk_rd rest (r_cur r + N.of_nat n) (crc_update (r_crc r) b)
                 (r_txn r) (r_last r) (r_loff r) (r_lck r) (r_gs r))
  end.

(** the adapter's reads go through the same tracked reader: whatever it consumed is checksummed and
    counted (rw.rs:164-175, 210-212) *)
Definition r_adapter (m : N) (r : rd) : option rd :=
  match adec m (r_gs r) (r_rest r) with
  | None => None
  | Some (g, rest) =>
      let n := (List.length (r_rest r) - List.length rest)%nat in
      Some (mk_rd rest (r_cur r + N.of_nat n) (crc_update (r_crc r) (firstn n (r_rest r)))
              (r_txn r) (r_last r) (r_loff r) (r_lck r) g)
  end.

(** [__refresh_known_txn], raw/mod.rs:702-707 *)
Definition r_refresh (r : rd) : rd :=
  mk_rd (r_rest r) (r_cur r) (r_crc r) (r_txn r + 1) (r_txn r) (r_cur r) (crc_finish (r_crc r)) (r_gs r).

(** what [_apply_next_event_and_stop] returns: [SMore] = [Ok(false)], [SDone] = [Ok(true)] *)
Inductive jstep := SMore (r : rd) | SDone (r : rd) | SErr.

(** the comparison of the stored metadata, raw/mod.rs:781-785 and 813-817 *)
Definition meta_ok (r : rd) (d : dev) : bool :=
  (r_lck r =? d_lck d) && (r_last r =? d_ltxn d) && (r_loff r =? d_loff d).

(** [handle_reopen], raw/mod.rs:803-829 *)
Definition handle_reopen (r : rd) : jstep :=
  match r_read 64 r with
  | None => SErr
  | Some (b, r1) =>
      match dec_dev b with
      | Some d =>
          match d_kind d with
          | DReopened => if meta_ok r1 d && (r_txn r1 =? d_txn d) then SMore (r_refresh r1) else SErr
          | DClosed => SErr
          end
      | None => SErr
      end
  end.

(** [handle_close], raw/mod.rs:748-802 *)
Definition handle_close (r : rd) (txn_meta : bytes) : jstep :=
  match r_read 40 r with
  | None => SErr
  | Some (b, r1) =>
      match dec_dev (txn_meta ++ b) with
      | Some d =>
          match d_kind d with
          | DReopened => SErr
          | DClosed =>
              if meta_ok r1 d then
                let r2 := r_refresh r1 in
                match r_rest r2 with [] => SDone r2 | _ => handle_reopen r2 end
              else SErr
          end
      | None => SErr
      end
  end.

(** [_apply_next_event_and_stop], raw/mod.rs:711-747 *)
Definition r_step (r : rd) : jstep :=
  match r_read 16 r with
  | None => SErr
  | Some (b1, r1) =>
  match r_read 8 r1 with
  | None => SErr
  | Some (b2, r2) =>
      let txn := le_dec b1 in
      let meta := le_dec b2 in
      if negb (txn =? r_txn r2) then SErr
      else if negb (N.land meta server_ev_mask =? 0) then
        match r_adapter (N.ldiff meta server_ev_mask) r2 with
        | None => SErr
        | Some r3 => SMore (r_refresh r3)
        end
      else handle_close r2 (b1 ++ b2)
  end end.

(** the loop of [scroll], raw/mod.rs:671-684 *)
Fixpoint r_loop (fuel : nat) (r : rd) : jres rd :=
  match r_step r with
  | SErr => JErr
  | SDone r' => JOk r'
  | SMore r' => match fuel with O => JFuel | S f => r_loop f r' end
  end.

(** [scroll], raw/mod.rs:661-685; the file after the header *)
Definition j_scroll (body : bytes) (gs : G) : jres rd :=
  r_loop (List.length body) (mk_rd body (N.of_nat header_size) crc_new 0 0 0 0 gs).

(** [SdssFile::open], rw.rs:66-73: [b] and [s] are the running build and the file spec *)
Definition split_header (b : build) (s : filespec) (file : bytes) : option bytes :=
  match take header_size file with
  | None => None
  | Some (h, body) => match open_header b s h with HOk _ => Some body | _ => None end
  end.

(** [open_journal], raw/mod.rs:67-77: replayed state, and the new writer *)
Definition j_open (b : build) (s : filespec) (env : list sys) (file : bytes) (gs : G)
  : jres (G * (jw * wres)) :=
  match split_header b s file with
  | None => JErr
  | Some body =>
      match j_scroll body gs with
      | JOk r => JOk (r_gs r, jw_new env file (r_cur r) (r_crc r) (r_txn r) (r_loff r))
      | JErr => JErr
      | JFuel => JFuel
      end
  end.
End Journal.
Arguments mk_rd {G}. Arguments SErr {G}. Arguments SMore {G}. Arguments SDone {G}.

(** ** Event log adapter: storage/v2/raw/journal/mod.rs:86-146 *)

(** an event to be written: metadata byte and payload *)
Definition elev := (N * bytes)%type.

(** [commit_direct], journal/mod.rs:103-125 *)
Definition el_commit (cap : N) (w : tw) (e : elev) : tw * wres :=
  let pl := snd e in
  let plen := u64_le (len pl) in
  let ck := u64_le (crc64 (plen ++ pl)) in
  wseq (tracked_write cap w ck) (fun w =>
  wseq (tracked_write cap w plen) (fun w =>
  tracked_write cap w pl)).

(** [parse_event_meta] (journal/mod.rs:100-102: the metadata is cut to one byte) and [decode_apply]
    (126-145). [nkinds] is the number of event kinds, [disp] the decode table
    ([DECODE_DISPATCH]). The buffer of the declared length is allocated before it is known that
    so many bytes exist (line 133): an abort there is an error here. *)
Definition el_dec {G} (nkinds : N) (disp : N -> bytes -> G -> option G)
  (m : N) (g : G) (l : bytes) : option (G * bytes) :=
  let kind := m mod 256 in
  if negb (kind <? nkinds) then None else
  match take 8 l with
  | None => None
  | Some (ck, l1) =>
  match take 8 l1 with
  | None => None
  | Some (plen, l2) =>
  match takeN (le_dec plen) l2 with
  | None => None
  | Some (pl, l3) =>
      if negb (crc64 (u64_le (le_dec plen) ++ pl) =? le_dec ck) then None
      else match disp kind pl g with None => None | Some g' => Some (g', l3) end
  end end end.
