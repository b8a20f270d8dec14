(** The wire protocol: client handshake, query exchange, responses. Paths are below
    /repo/server/src/engine/. Machine integers wrap modulo 2^64 (release profile). *)
From Coq Require Import Strings.String List Arith NArith ZArith Lia Bool.
From Verif Require Import Bytes DataModel NumModel.
Import ListNotations.
Local Open Scope N_scope.

(** [usize] addition and subtraction in a release build *)
Definition wadd (a b : N) : N := (a + b) mod two64.
(** [usize] subtraction in a release build *)
Definition wsub (a b : N) : N := (a + two64 - b) mod two64.

(* ------------------------------------------------------------------ *)
(** * Handshake *)

(** net/protocol/handshake.rs:35-51 [ProtocolError] *)
Inductive perr := PCorrupted | PVersion | PProtocol | PExchange | PQuery | PAuth.
(** discriminants, handshake.rs:37-50 *)
Definition perr_code (e : perr) : N :=
  match e with
  | PCorrupted => 0 | PVersion => 1 | PProtocol => 2 | PExchange => 3 | PQuery => 4 | PAuth => 5
  end.

(** handshake.rs:111-131 [HandshakeState]. The static block carries no information: every field
    of [CHandshakeStatic] has the single admissible value once the checks passed
    (handshake.rs:58-93, 319-328). *)
Inductive hstate := HInitial | HStatic | HMeta (uname_l : N) | HVar (uname_l pwd_l : N).

(** handshake.rs:209-221 [HandshakeResult]; [HPanic] is a Rust panic, [HOob] a slice built past the
    end of the receive buffer (undefined behaviour). *)
Inductive hout :=
| HDone (uname pwd : bytes)
| HMore (st : hstate) (expect : N)
| HErr (e : perr)
| HPanic
| HOob.

(** handshake.rs:332-355 [resume_at_variable_block_payload] *)
Definition hs_variable (u p : N) (rest : bytes) : hout * bytes :=
  if wadd u p <=? len rest then
    match takeN u rest with
    | None => (HOob, rest)
    | Some (uname, r1) =>
        match takeN p r1 with
        | None => (HOob, rest)
        | Some (pwd, r2) => (HDone uname pwd, r2)
        end
    end
  else (HMore (HVar u p) (wadd u p), rest).

(** handshake.rs:393-413 [resume_at_auth_metadata2] *)
Definition hs_meta2 (u : N) (rest : bytes) : hout * bytes :=
  match lf_u64 rest with
  | SVal p r => hs_variable u p r
  | SMore => (HMore (HMeta u) (wadd u 2), rest)
  | SErr => (HErr PCorrupted, rest)
  end.

(** handshake.rs:360-391 [resume_at_auth_metadata1]; 4 is [AuthMode::min_payload_bytes],
    handshake.rs:96-103 *)
Definition hs_meta1 (rest : bytes) : hout * bytes :=
  if len rest <? 4 then (HMore HStatic 4, rest)
  else match lf_u64 rest with
       | SVal u r => hs_meta2 u r
       | SMore => (HMore HStatic 4, rest)
       | SErr => (HErr PCorrupted, rest)
       end.

(** handshake.rs:300-307: the error table [ERROR] *)
Definition hs_errors : list perr := [PCorrupted; PVersion; PProtocol; PExchange; PQuery; PAuth].

(** [flag as u8 * weight], handshake.rs:309-315 *)
Definition weigh (flag : bool) (w : N) : N := if flag then w else 0.

(** handshake.rs:272-331 [resume_initial], release build: fewer than 6 bytes fail the [assert!] of
    line 282; the error table is indexed with the bitwise OR of the weights minus one. *)
Definition hs_initial (rest : bytes) : hout * bytes :=
  match rest with
  | b0 :: b1 :: b2 :: b3 :: b4 :: b5 :: r =>
      let f0 := negb (beq b0 x48) in
      let f1 := 0 <? b2n b1 in
      let f2 := 0 <? b2n b2 in
      let f3 := 0 <? b2n b3 in
      let f4 := 0 <? b2n b4 in
      let f5 := 0 <? b2n b5 in
      if f0 || f1 || f2 || f3 || f4 || f5 then
        let w := N.lor (N.lor (N.lor (N.lor (N.lor (weigh f0 1) (weigh f1 2)) (weigh f2 3))
                    (weigh f3 4)) (weigh f4 5)) (weigh f5 6) in
        match nth_error hs_errors (N.to_nat (w - 1)) with
        | Some e => (HErr e, r)
        | None => (HPanic, r)
        end
      else hs_meta1 r
  | _ => (HPanic, rest)
  end.

(** handshake.rs:239-262 [CHandshake::resume_with] *)
Definition hs_resume (st : hstate) (rest : bytes) : hout * bytes :=
  match st with
  | HInitial => hs_initial rest
  | HStatic => hs_meta1 rest
  | HMeta u => hs_meta2 u rest
  | HVar u p => hs_variable u p rest
  end.

(** the locals of [do_handshake], net/protocol/mod.rs:245-247, and the receive buffer *)
Record hconn := { hc_buf : bytes; hc_cur : nat; hc_exp : N; hc_st : hstate }.
(** net/protocol/mod.rs:245-247; 6 is [CHandshake::INITIAL_READ], handshake.rs:233 *)
Definition hc_init : hconn := {| hc_buf := []; hc_cur := 0; hc_exp := 6; hc_st := HInitial |}.

(** how the loop of [do_handshake] can stand after a number of reads *)
Inductive hres :=
| HWait (c : hconn)                        (* waiting for the next read *)
| HFinal (uname pwd : bytes) (unread : bytes)  (* parsed; bytes left in the buffer after [advance] *)
| HReject (e : perr)
| HClosed                                  (* read of 0 bytes *)
| HCrash                                   (* panic *)
| HUnsafe.                                 (* out-of-bounds slice *)

(** net/protocol/mod.rs:249-277: one iteration of the loop, [chunk] being what [read_buf] appended
    to the buffer. *)
Definition hs_read (c : hconn) (chunk : bytes) : hres :=
  match chunk with
  | [] => HClosed
  | _ =>
      let buf := hc_buf c ++ chunk in
      if len buf <? hc_exp c then
        HWait {| hc_buf := buf; hc_cur := hc_cur c; hc_exp := hc_exp c; hc_st := hc_st c |}
      else
        match hs_resume (hc_st c) (skipn (hc_cur c) buf) with
        | (HDone u p, rest) => HFinal u p rest
        | (HMore st e, rest) =>
            HWait {| hc_buf := buf; hc_cur := (List.length buf - List.length rest)%nat;
                     hc_exp := e; hc_st := st |}
        | (HErr e, _) => HReject e
        | (HPanic, _) => HCrash
        | (HOob, _) => HUnsafe
        end
  end.

(** the loop of net/protocol/mod.rs:249-277 over a sequence of reads *)
Fixpoint hs_run (c : hconn) (chunks : list bytes) : hres :=
  match chunks with
  | [] => HWait c
  | ch :: rest =>
      match hs_read c ch with
      | HWait c' => hs_run c' rest
      | r => r
      end
  end.

(** net/protocol/mod.rs:292-315 and 149-162: the answer written to the client once the handshake is
    parsed or rejected. [verify] is [sys_db().verify_user] composed with the UTF-8 check of line 292
    (both modelled elsewhere); [None]: not accepted. *)
Definition hs_answer (verify : bytes -> bytes -> option bool) (r : hres) : option bytes :=
  match r with
  | HFinal u p _ =>
      match verify u p with
      | Some _ => Some [x48; x00; x00; x00]
      | None => Some [x48; x00; x01; n2b (perr_code PAuth)]
      end
  | HReject e => Some [x48; x00; x01; n2b (perr_code e)]
  | _ => None
  end.

(* ------------------------------------------------------------------ *)
(** * Query exchange *)

(** net/protocol/exchange.rs:101-106 [QExchangeStateInternal] *)
Inductive qphase := QInitial | QMeta1 | QMeta2 | QData.

(** exchange.rs:115-120 [QExchangeState] *)
Record qstate := { q_phase : qphase; q_target : N; q_size : N; q_window : N }.

(** exchange.rs:165-168 [QExchangeState::new]; 5 is [MIN_READ] *)
Definition q_new : qstate := {| q_phase := QInitial; q_target := 5; q_size := 0; q_window := 0 |}.

(** exchange.rs:130-137 [QExchangeResult], a completed query being the pair of [SQuery]
    (exchange.rs:65-68) *)
Inductive qout := QCompleted (payload : bytes) (window : N) | QChange (st : qstate) | QError.

(** exchange.rs:220-233 [resume_data]; [cur] is [scanner.cursor()] *)
Definition q_data (st : qstate) (cur : N) (rest : bytes) : qout * bytes :=
  let df := wsub (q_target st) cur in
  if len rest =? df then (QCompleted rest (q_window st), [])
  else (QChange {| q_phase := QData; q_target := q_target st; q_size := q_size st;
                   q_window := q_window st |}, rest).

(** exchange.rs:206-219 [resume_at_md2]; [blen] is the buffer length, so that the cursor is
    [blen - len rest] *)
Definition q_md2 (st : qstate) (blen : N) (rest : bytes) : qout * bytes :=
  match scan_int rest (q_window st) with
  | AccDone w r =>
      q_data {| q_phase := q_phase st; q_target := q_target st; q_size := q_size st;
                q_window := w |} (blen - len r) r
  | AccPend w =>
      (QChange {| q_phase := QMeta2; q_target := q_target st; q_size := q_size st;
                  q_window := w |}, [])
  | AccErr => (QError, rest)
  end.

(** exchange.rs:188-205 [resume_at_md1] *)
Definition q_md1 (st : qstate) (blen : N) (rest : bytes) : qout * bytes :=
  match scan_int rest (q_size st) with
  | AccDone v r =>
      q_md2 {| q_phase := q_phase st; q_target := wadd (blen - len r) v; q_size := v;
               q_window := q_window st |} blen r
  | AccPend v =>
      (QChange {| q_phase := QMeta1; q_target := wadd (q_target st) 1; q_size := v;
                  q_window := q_window st |}, [])
  | AccErr => (QError, rest)
  end.

(** exchange.rs:181-187 [start_initial]; the gate of [query_loop] guarantees at least 5 bytes, the
    empty case is unreachable and answered like a wrong first byte *)
Definition q_initial (st : qstate) (blen : N) (rest : bytes) : qout * bytes :=
  match rest with
  | b :: r => if beq b x53 then q_md1 st blen r else (QError, r)
  | [] => (QError, [])
  end.

(** exchange.rs:172-180 [QExchangeState::resume] *)
Definition q_resume (st : qstate) (blen : N) (rest : bytes) : qout * bytes :=
  match q_phase st with
  | QInitial => q_initial st blen rest
  | QMeta1 => q_md1 st blen rest
  | QMeta2 => q_md2 st blen rest
  | QData => q_data st (blen - len rest) rest
  end.

(** the locals of [query_loop], net/protocol/mod.rs:163-164, and the receive buffer *)
Record qconn := { qc_buf : bytes; qc_cur : nat; qc_st : qstate }.
(** net/protocol/mod.rs:163-164, 226-228 *)
Definition qc_reset : qconn := {| qc_buf := []; qc_cur := 0; qc_st := q_new |}.

(** what the loop does on a completed iteration: hand a query to the executor, answer an illegal
    packet *)
Inductive qevent := EvQuery (query params : bytes) | EvIllegal.

(** outcome of one loop iteration *)
Inductive qres := QWait (c : qconn) | QEmit (e : qevent) (c : qconn) | QClosed | QCrash.

(** net/protocol/mod.rs:165-229: one iteration, [chunk] being what [read_buf] appended. The executor
    starts by taking [query.query()] and [query.params()] (core/exec.rs:50), which slice the payload
    at the client-supplied window (exchange.rs:80-85): a window beyond the payload panics. *)
Definition q_read (c : qconn) (chunk : bytes) : qres :=
  match chunk with
  | [] => QClosed
  | _ =>
      let buf := qc_buf c ++ chunk in
      if len buf <? q_target (qc_st c) then
        QWait {| qc_buf := buf; qc_cur := qc_cur c; qc_st := qc_st c |}
      else
        match q_resume (qc_st c) (len buf) (skipn (qc_cur c) buf) with
        | (QCompleted payload w, _) =>
            match takeN w payload with
            | Some (q, params) => QEmit (EvQuery q params) qc_reset
            | None => QCrash
            end
        | (QChange st, rest) =>
            QWait {| qc_buf := buf; qc_cur := (List.length buf - List.length rest)%nat; qc_st := st |}
        | (QError, _) => QEmit EvIllegal qc_reset
        end
  end.

(** how a connection stands after a number of reads *)
Inductive qstop := QRunning (c : qconn) | QStopClosed | QStopCrash.

(** the loop of net/protocol/mod.rs:165-229 over a sequence of reads: the events in order *)
Fixpoint q_run (c : qconn) (chunks : list bytes) : list qevent * qstop :=
  match chunks with
  | [] => ([], QRunning c)
  | ch :: rest =>
      match q_read c ch with
      | QWait c' => q_run c' rest
      | QEmit e c' => let (es, f) := q_run c' rest in (e :: es, f)
      | QClosed => ([], QStopClosed)
      | QCrash => ([], QStopCrash)
      end
  end.

(** The packet a client builds for a query and its parameter block: net/protocol/tests.rs
    [create_simple_query] (the layout all clients use): 'S', total size LF, query size LF, query,
    parameters; the total counts everything after the first LF. *)
Definition packet (q params : bytes) : bytes :=
  let w := dec_u64 (len q) ++ [LF] in
  x53 :: dec_u64 (len w + len q + len params) ++ [LF] ++ w ++ q ++ params.

(* ------------------------------------------------------------------ *)
(** * Responses *)

Section Responses.
(** [f64::to_string] of the standard library applied to the 64-bit pattern *)
Variable ftoa : N -> bytes.

(** the [i64] with the given 64-bit pattern: [read_sint], data/cell.rs *)
Definition signed64 (w : N) : Z :=
  if w <? 9223372036854775808 then Z.of_N w else (Z.of_N w - 18446744073709551616)%Z.

(** core/dml/sel.rs:142-174 [encode_cell] *)
Fixpoint enc_cell (c : cell) : bytes :=
  match c with
  | CNull => [x00]
  | CBool b => [n2b (tsel_code (cell_sel c) + 1); if b then x01 else x00]
  | CQw q w =>
      n2b (tsel_code (cell_sel c) + 1) ::
      match tsel_class (qsel_tsel q) with
      | TcUInt => dec_u64 w
      | TcSInt => dec_i64 (signed64 w)
      | _ => ftoa w
      end ++ [LF]
  | CBin b | CStr b => n2b (tsel_code (cell_sel c) + 1) :: dec_u64 (len b) ++ [LF] ++ b
  | CList l =>
      n2b (tsel_code (cell_sel c) + 1) :: dec_u64 (N.of_nat (List.length l)) ++ [LF] ++
      flat_map enc_cell l
  end.

(** net/protocol/mod.rs:132-141 [Response], and the error result of the executor
    (mod.rs:218-222) *)
Inductive response :=
| REmpty | RNull | RBool (b : bool) | RSer (ty : N) (size : N) (data : bytes) | RErr (code : N).

(** net/protocol/mod.rs:71-95: the codes used below *)
Definition rt_string : N := 13.
(** net/protocol/mod.rs:71-95 *)
Definition rt_error : N := 16.
(** net/protocol/mod.rs:71-95 *)
Definition rt_row : N := 17.
(** net/protocol/mod.rs:71-95 *)
Definition rt_empty : N := 18.
(** net/protocol/mod.rs:71-95 *)
Definition rt_multirow : N := 19.

(** net/protocol/mod.rs:202-223: the bytes written for a result *)
Definition respond (r : response) : bytes :=
  match r with
  | REmpty => [n2b rt_empty]
  | RSer ty size data => n2b ty :: dec_u64 size ++ [LF] ++ data
  | RBool b => [x01; if b then x01 else x00]
  | RNull => [x00]
  | RErr code => [n2b rt_error; n2b code; n2b (code / 256)]
  end.

(** core/dml/sel.rs:47-62 [select_resp] for the selected cells *)
Definition select_resp (cells : list cell) : response :=
  RSer rt_row (N.of_nat (List.length cells)) (flat_map enc_cell cells).

(** core/dml/sel.rs:64-84 [select_all_resp] for [cols] columns and the selected rows *)
Definition select_all_resp (cols : N) (rows : list (list cell)) : response :=
  RSer rt_multirow (N.of_nat (List.length rows))
       (dec_u64 cols ++ [LF] ++ flat_map (flat_map enc_cell) rows).

(** core/exec.rs:225-230 and core/ddl_misc.rs:101-105: a string result *)
Definition string_resp (s : bytes) : response := RSer rt_string (len s) s.
End Responses.
