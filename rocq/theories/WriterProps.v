(** C11 (buffered writer), C50 (short writes), C51 part (burst detection by the checksum). *)
From Coq Require Import Strings.String List NArith Lia Bool.
From Verif Require Import Bytes CrcModel CrcProofs WriterModel WriterProofs.
Import ListNotations.
Local Open Scope N_scope.

(** Specification vocabulary (no model helper is used in it):
    the bytes handed over by an operation, and those of the operations that reported success. *)
Definition asked (o : wop) : bytes :=
  match o with OpWrite b | OpDWrite b | OpThrough b => b | OpFlush | OpSync => [] end.

Fixpoint asked_ok (ops : list wop) (rs : list wres) : bytes :=
  match ops, rs with
  | o :: ops', WOk :: rs' => asked o ++ asked_ok ops' rs'
  | _ :: ops', _ :: rs' => asked_ok ops' rs'
  | _, _ => []
  end.

(** every system call writes everything it was given, or fails without writing *)
Definition all_or_nothing (env : list sys) : Prop := forall o, In o env -> o = SysFull \/ o = SysErr.

Lemma asked_ok_accepted ops : forall rs, asked_ok ops rs = accepted_all ops rs.
Proof.
  induction ops as [|o ops IH]; destruct rs as [|r rs]; try reflexivity.
  destruct r; cbn; rewrite IH; destruct o; reflexivity.
Qed.

Lemma all_or_nothing_atomic env : all_or_nothing env -> atomic env.
Proof. intros H. apply Forall_forall. exact H. Qed.

(** C11, data: for every buffer size, every sequence of operations and every all-or-nothing disk,
    disk content followed by buffer content is exactly what the successful operations were given,
    in order; the cursor is the size of the file; the buffer never exceeds its size; no call hangs. *)
Theorem C11_no_byte_lost_or_reordered : forall cap env file ck ops w rs,
  all_or_nothing env ->
  w_run cap (tw_new env file (len file) ck) ops = (w, rs) ->
  w_file w ++ w_buf w = file ++ asked_ok ops rs /\
  w_cursor w = len (w_file w) /\ len (w_buf w) <= cap /\ ~ In WLoop rs.
Proof.
  intros cap env file ck ops w rs HA E.
  assert (I : winv cap (tw_new env file (len file) ck) file).
  { unfold winv, tw_new; cbn. rewrite app_nil_r. repeat split; auto; try (rewrite len_nil; lia).
    - apply N.le_0_l.
    - apply all_or_nothing_atomic; auto. }
  apply (w_run_inv _ _ _ _ _ _ I) in E as [(Hd & Hc & Hb & _) HL].
  rewrite asked_ok_accepted. auto.
Qed.
Print Assumptions C11_no_byte_lost_or_reordered.

(** C11, checksum: when every operation succeeded the running checksum is that of everything
    written. *)
Theorem C11_checksum_tracks_all_bytes : forall cap file tracked ops w rs,
  w_run cap (tw_new [] file (len file) (crc_update crc_new tracked)) ops = (w, rs) ->
  Forall (fun r => r = WOk) rs ->
  List.length rs = List.length ops /\
  crc_finish (w_ck w) = crc64 (tracked ++ concat (map asked ops)).
Proof.
  intros cap file tracked ops w rs E HF.
  assert (I : winv cap (tw_new [] file (len file) (crc_update crc_new tracked)) file).
  { unfold winv, tw_new; cbn. rewrite app_nil_r. repeat split; auto using atomic_nil. apply N.le_0_l. }
  apply (w_run_ck _ _ _ _ _ _ I) in E as (L & K & _); auto. split; auto.
  rewrite K, crc64_app_state. cbn [tw_new w_ck]. reflexivity.
Qed.
Print Assumptions C11_checksum_tracks_all_bytes.

(** C11, liveness on a healthy disk: buffered writes and flushes of any size always succeed, and after a
    final sync everything is on disk. *)
Theorem C11_sync_puts_everything_on_disk : forall cap file ck chunks,
  exists w, w_run cap (tw_new [] file (len file) ck) (map OpWrite chunks ++ [OpSync])
            = (w, repeat WOk (S (List.length chunks))) /\
            w_file w = file ++ concat chunks /\ w_buf w = [].
Proof.
  intros cap file ck chunks.
  assert (G : forall chunks w d, happy cap w d ->
    exists w', w_run cap w (map OpWrite chunks ++ [OpSync]) = (w', repeat WOk (S (List.length chunks)))
               /\ w_file w' = d ++ concat chunks /\ w_buf w' = []).
  { clear. induction chunks as [|c cs IH]; intros w d H.
    - cbn. destruct (flush_sync_happy cap w d H) as (w' & E & _ & B & F & _). rewrite E.
      exists w'. rewrite app_nil_r. auto.
    - cbn [map app w_run w_do]. destruct (tracked_write_happy cap w d c H) as (w1 & E & H1 & _).
      rewrite E. destruct (IH w1 _ H1) as (w2 & E2 & F2 & B2). rewrite E2.
      exists w2. cbn [concat List.length repeat]. rewrite app_assoc. auto. }
  destruct (G chunks (tw_new [] file (len file) ck) file) as (w & E & F & B).
  { split; [|reflexivity]. unfold winv, tw_new; cbn. rewrite app_nil_r.
    repeat split; auto using atomic_nil. apply N.le_0_l. }
  exists w. auto.
Qed.
Print Assumptions C11_sync_puts_everything_on_disk.

(** a run that meets the hypotheses: an 8-byte buffer, chunks below, at and above its size, one failure *)
Example C11_example :
  let ops := [OpWrite (bstr "abcde"%string); OpWrite (bstr "fgh"%string); OpWrite (bstr "0123456789ABCDEF"%string);
              OpFlush; OpFlush; OpThrough (bstr "xyz"%string)] in
  exists w, w_run 8 (tw_new [SysFull; SysFull; SysErr] (bstr "HDR"%string) 3 crc_new) ops
            = (w, [WOk; WOk; WOk; WErr; WOk; WOk]) /\
            w_file w = bstr "HDRabcdefgh0123456789ABCDEFxyz"%string.
Proof. eexists. split; vm_compute; reflexivity. Qed.

(** Finding: after a failed write the running checksum may cover bytes that are not in the file
    (rw.rs:469-474: bytes flushed from the *buffer* are counted as bytes of the failed block). *)
Theorem C11_checksum_after_failure_refuted : exists cap env file ops w rs,
  all_or_nothing env /\
  w_run cap (tw_new env file (len file) crc_new) ops = (w, rs) /\
  asked_ok ops rs = bstr "ab"%string /\ w_file w = file ++ bstr "ab"%string /\
  crc_finish (w_ck w) <> crc64 (bstr "ab"%string).
Proof.
  exists 4, [SysFull; SysErr], (bstr "H"%string), [OpWrite (bstr "ab"%string); OpWrite (bstr "cdefgh"%string)].
  eexists. eexists. split.
  { intros o [<-|[<-|[]]]; auto. }
  split; [vm_compute; reflexivity|]. vm_compute. repeat split; discriminate.
Qed.
Print Assumptions C11_checksum_after_failure_refuted.

(** C50. The write loop is told how many bytes the operating system took. Full statement: the file
    then holds [buf] once and the call succeeds. It is false: the next call starts again at the
    beginning of [buf] (interface/fs.rs:159). *)

(** For every buffer and every first short write, if the disk then accepts all further calls the call
    never returns... *)
Theorem C50_short_write_never_returns : forall file buf n,
  0 < n < len buf ->
  snd (fwrite_all_count [SysOk n] file buf) = WLoop.
Proof.
  intros file buf n H. unfold fwrite_all_count. cbn [fwrite_loop sys_count].
  destruct (N.eqb_spec 0 (len buf)); [lia|].
  rewrite N.min_l by lia. destruct (N.eqb_spec n 0); [lia|].
  rewrite N.add_0_l. destruct (N.eqb_spec n (len buf)); [lia|]. destruct (N.eqb_spec n 0); [lia|]. reflexivity.
Qed.
Print Assumptions C50_short_write_never_returns.

(** ... and in the meantime appends whole copies of the buffer: after [k] further calls the file has
    grown by the partial copy and [k] full copies. *)
Theorem C50_short_write_repeats_data : forall file buf n k,
  0 < n < len buf ->
  fwrite_all_count (SysOk n :: repeat SysFull k ++ [SysErr]) file buf
  = ([], file ++ firstn (N.to_nat n) buf ++ concat (repeat buf k), n + N.of_nat k * len buf, WErr).
Proof.
  intros file buf n k H. unfold fwrite_all_count. cbn [fwrite_loop sys_count].
  destruct (N.eqb_spec 0 (len buf)); [lia|].
  rewrite N.min_l by lia. destruct (N.eqb_spec n 0); [lia|]. rewrite N.add_0_l.
  assert (Hw : n <> 0 /\ n <> len buf /\ forall j, n + N.of_nat j * len buf <> len buf).
  { split; [lia|]. split; [lia|]. intros [|j]; lia. }
  rewrite (fwrite_short_then_full n k _ buf n ltac:(lia) Hw eq_refl).
  rewrite app_assoc. reflexivity.
Qed.
Print Assumptions C50_short_write_repeats_data.

(** Two short writes that add up to the length: the call reports success and the file is wrong. *)
Theorem C50_short_write_silent_corruption_refuted : exists file buf n,
  fwrite_all_count [SysOk n; SysOk (len buf - n)] file buf
  = ([], file ++ bstr "HELLOHELLO"%string, len buf, WOk) /\ file ++ bstr "HELLOHELLO"%string <> file ++ buf.
Proof.
  exists [], (bstr "HELLOWORLD"%string), 5. split; [vm_compute; reflexivity|]. vm_compute. discriminate.
Qed.
Print Assumptions C50_short_write_silent_corruption_refuted.

(** The true part: with no short write the file gets exactly [buf] or nothing, and the result says which. *)
Theorem C50_full_or_failed_write_partial : forall env file buf env' file' n r,
  all_or_nothing env -> fwrite_all_count env file buf = (env', file', n, r) ->
  (r = WOk /\ file' = file ++ buf /\ n = len buf) \/ (r = WErr /\ file' = file /\ n = 0).
Proof.
  intros * HA E. apply all_or_nothing_atomic in HA. apply fwrite_atomic in E as [_ [?|(?&?&?&_)]]; auto.
Qed.
Print Assumptions C50_full_or_failed_write_partial.

Example C50_example : fwrite_all_count [SysFull] (bstr "a"%string) (bstr "bc"%string) = ([], bstr "abc"%string, 2, WOk).
Proof. reflexivity. Qed.

(** Finding: a failed buffered write can crash the process: after a short write followed by an error the
    slice in the error path (rw.rs:472) is longer than the block. *)
Theorem C11_failed_write_panics_refuted : exists cap env file ops,
  snd (w_run cap (tw_new env file (len file) crc_new) ops) = [WOk; WPanic].
Proof.
  exists 8, [SysOk 5; SysErr], (bstr "H"%string), [OpWrite (bstr "abcdefgh"%string); OpWrite (bstr "i"%string)].
  vm_compute. reflexivity.
Qed.
Print Assumptions C11_failed_write_panics_refuted.
