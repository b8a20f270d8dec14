(** File writes and the buffered, checksumming writer:
    storage/common/interface/fs.rs, storage/common/sdss/impls/sdss_r1/rw.rs, mem/fixed_vec.rs. *)
From Coq Require Import List NArith Bool.
From Verif Require Import Bytes CrcModel.
Import ListNotations.
Local Open Scope N_scope.

(** Outcome of one [write] system call ([FileWrite::fwrite], interface/fs.rs:256-260):
    [SysOk n] = [Ok(n)] with [n] bytes appended (cut to the buffer length: the kernel never reports
    more), [SysFull] = [Ok(buf.len())], [SysErr] = [Err(e)] with nothing written. *)
Inductive sys := SysOk (n : N) | SysFull | SysErr.

(** bytes reported by a call that did not fail, interface/fs.rs:256-260 *)
Definition sys_count (o : sys) (buf : bytes) : option N :=
  match o with SysErr => None | SysFull => Some (len buf) | SysOk n => Some (N.min n (len buf)) end.

(** Result of a writer operation. [WPanic] is a Rust panic; [WLoop] means that the call never
    returns (it keeps appending to the file). *)
Inductive wres := WOk | WErr | WPanic | WLoop.

(** [fwrite_all_count], interface/fs.rs:155-175. [env] lists the outcomes of the next system
    calls; once it is used up every call writes its whole buffer. The loop hands the *whole* [buf]
    to every call (line 159) and stops only when [written] equals the length exactly (line 158).
    When [env] is exhausted and [written] is neither 0 nor [len buf], every further call adds
    [len buf] bytes and [written] never equals [len buf] again (64-bit wrap-around of [written]
    after 2^64 bytes is not modelled): [WLoop]. An empty buffer makes no call.
    Result: rest of [env], file content, [written], result. *)
Fixpoint fwrite_loop (env : list sys) (file buf : bytes) (written : N)
  : list sys * bytes * N * wres :=
  if written =? len buf then (env, file, written, WOk) else
  match env with
  | [] => if written =? 0 then ([], file ++ buf, len buf, WOk) else ([], file, written, WLoop)
  | o :: env' =>
      match sys_count o buf with
      | None => (env', file, written, WErr)
      | Some n =>
          if n =? 0 then (env', file, written, WErr)
          else fwrite_loop env' (file ++ firstn (N.to_nat n) buf) buf (written + n)
      end
  end.

(** [fwrite_all_count], interface/fs.rs:155-157 *)
Definition fwrite_all_count (env : list sys) (file buf : bytes) : list sys * bytes * N * wres :=
  fwrite_loop env file buf 0.

(** [TrackedWriter], rw.rs:290-302. [w_file] is the file behind [f_d]; the OS position is always its
    end (files are opened, read to the end, then appended to). [w_env] is the future behaviour of
    the operating system. *)
Record tw := mk_tw {
  w_env : list sys;
  w_file : bytes;
  w_cursor : N;
  w_ck : N;
  w_part : N;
  w_buf : bytes
}.

(** [with_cursor_and_checksum], rw.rs:404-410 with [_new], 358-367 *)
Definition tw_new (env : list sys) (file : bytes) (c ck : N) : tw := mk_tw env file c ck crc_new [].

(** [flush_buf], rw.rs:508-531: what was reported written is removed from the front of the buffer.
    [decr_len_by]/[clear_start], fixed_vec.rs:79-81, 122-129; [written > buf.len()] would make
    [clear_start] read outside the vector: [WPanic] (its debug assertion). *)
Definition flush_buf (w : tw) : tw * wres :=
  let '(env, file, written, r) := fwrite_all_count (w_env w) (w_file w) (w_buf w) in
  match r with
  | WLoop => (mk_tw env file (w_cursor w) (w_ck w) (w_part w) (w_buf w), WLoop)
  | _ =>
    if len (w_buf w) <? written
    then (mk_tw env file (w_cursor w) (w_ck w) (w_part w) (w_buf w), WPanic)
    else (mk_tw env file (w_cursor w + written) (w_ck w) (w_part w)
            (skipn (N.to_nat written) (w_buf w)), r)
  end.

Section Cap.
(** the const generic [SIZE], rw.rs:292 (8192 in the journals) *)
Variable cap : N.

(** [untracked_write], rw.rs:479-502 *)
Definition untracked_write (w : tw) (b : bytes) : tw * wres :=
  if len b <=? cap - len (w_buf w)
  then (mk_tw (w_env w) (w_file w) (w_cursor w) (w_ck w) (w_part w) (w_buf w ++ b), WOk)
  else
    let '(w1, r) := flush_buf w in
    match r with
    | WOk =>
      let cnt := len b - cap in
      let '(env, file, written, r2) :=
        fwrite_all_count (w_env w1) (w_file w1) (firstn (N.to_nat cnt) b) in
      let w2 := mk_tw env file (w_cursor w1 + written) (w_ck w1) (w_part w1) (w_buf w1) in
      match r2 with
      | WOk => (mk_tw env file (w_cursor w2) (w_ck w2) (w_part w2)
                  (w_buf w2 ++ skipn (N.to_nat cnt) b), WOk)
      | r2 => (w2, r2)
      end
    | r => (w1, r)
    end.

(** [tracked_write], rw.rs:462-477; on error the slice [buf[..cursor_now - cursor_start]] (line 472)
    panics when more bytes than [buf] holds were flushed *)
Definition tracked_write (w : tw) (b : bytes) : tw * wres :=
  let start := w_cursor w in
  let '(w1, r) := untracked_write w b in
  match r with
  | WOk => (mk_tw (w_env w1) (w_file w1) (w_cursor w1) (crc_update (w_ck w1) b) (w_part w1) (w_buf w1), WOk)
  | WErr =>
      let n := w_cursor w1 - start in
      if len b <? n then (w1, WPanic)
      else (mk_tw (w_env w1) (w_file w1) (w_cursor w1)
              (crc_update (w_ck w1) (firstn (N.to_nat n) b)) (w_part w1) (w_buf w1), WErr)
  | r => (w1, r)
  end.

(** [dtrack_write], rw.rs:450-453 *)
Definition dtrack_write (w : tw) (b : bytes) : tw * wres :=
  let '(w1, r) := tracked_write w b in
  match r with
  | WOk => (mk_tw (w_env w1) (w_file w1) (w_cursor w1) (w_ck w1) (crc_update (w_part w1) b) (w_buf w1), WOk)
  | r => (w1, r)
  end.

(** [reset_partial], rw.rs:455-457 *)
Definition reset_partial (w : tw) : tw * N :=
  (mk_tw (w_env w) (w_file w) (w_cursor w) (w_ck w) crc_new (w_buf w), crc_finish (w_part w)).

(** [tracked_write_through_buffer], rw.rs:433-448; the debug assertion that the buffer is empty
    (line 434) is [WPanic] *)
Definition tracked_write_through (w : tw) (b : bytes) : tw * wres :=
  match w_buf w with
  | _ :: _ => (w, WPanic)
  | [] =>
    let '(env, file, written, r) := fwrite_all_count (w_env w) (w_file w) b in
    match r with
    | WOk => (mk_tw env file (w_cursor w + written) (crc_update (w_ck w) b) (w_part w) [], WOk)
    | WErr => if len b <? written
              then (mk_tw env file (w_cursor w + written) (w_ck w) (w_part w) [], WPanic)
              else (mk_tw env file (w_cursor w + written)
                      (crc_update (w_ck w) (firstn (N.to_nat written) b)) (w_part w) [], WErr)
    | r => (mk_tw env file (w_cursor w) (w_ck w) (w_part w) [], r)
    end
  end.

(** [flush_sync], rw.rs:504-506 with [fsync], 532-534; [fsync_all] consumes one outcome: [SysErr]
    fails it, anything else lets it succeed *)
Definition flush_sync (w : tw) : tw * wres :=
  let '(w1, r) := flush_buf w in
  match r with
  | WOk =>
      match w_env w1 with
      | [] => (w1, WOk)
      | o :: env => (mk_tw env (w_file w1) (w_cursor w1) (w_ck w1) (w_part w1) (w_buf w1),
                     match o with SysErr => WErr | _ => WOk end)
      end
  | r => (w1, r)
  end.

(** [verify_cursor], rw.rs:335-345: the OS cursor is the end of the file *)
Definition verify_cursor (w : tw) : bool := w_cursor w =? len (w_file w).

(** [__zero_buffer], rw.rs:346-348 *)
Definition zero_buffer (w : tw) : tw :=
  mk_tw (w_env w) (w_file w) (w_cursor w) (w_ck w) (w_part w) [].

(** a call of one of the public writing operations, rw.rs:424-535 *)
Inductive wop := OpWrite (b : bytes) | OpDWrite (b : bytes) | OpThrough (b : bytes) | OpFlush | OpSync.

(** dispatch of [wop], rw.rs:424-535 *)
Definition w_do (w : tw) (o : wop) : tw * wres :=
  match o with
  | OpWrite b => tracked_write w b
  | OpDWrite b => dtrack_write w b
  | OpThrough b => tracked_write_through w b
  | OpFlush => flush_buf w
  | OpSync => flush_sync w
  end.

(** a caller that issues operations one after another and keeps the results; it stops at a panic or
    a call that does not return (the callers in storage/v2/raw/journal propagate errors) *)
Fixpoint w_run (w : tw) (ops : list wop) : tw * list wres :=
  match ops with
  | [] => (w, [])
  | o :: ops' =>
      let '(w1, r) := w_do w o in
      match r with
      | WPanic | WLoop => (w1, [r])
      | _ => let '(w2, rs) := w_run w1 ops' in (w2, r :: rs)
      end
  end.
End Cap.
