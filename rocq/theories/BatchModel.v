(** Model data on disk: batches of row changes (storage/v2/impls/mdl_journal.rs), the batch adapter of
    the journal (storage/v2/raw/journal/mod.rs:148-314), the background flusher (fractal/mgr.rs) and
    the restore at start-up.

    Simplifications: each DML statement and each step of a flush (one dequeued change) is atomic; the
    file is opened again only after a clean shutdown (an unclosed journal is refused, see
    JournalModel.v); memory allocation never fails. The two machine-word counts of a batch (queue
    length and number of events) do not wrap. *)
From Coq Require Import List NArith Bool.
From Verif Require Import Bytes AMap DataModel CodecModel CrcModel WriterModel JournalModel
  GnsCodecModel GnsModel RowModel.
Import ListNotations.
Local Open Scope N_scope.

(** ** Batches *)

(** an event inside a batch: [DecodedBatchEvent], mdl_journal.rs:382-398 (cells are empty for a
    deletion) *)
Record bev := mk_bev { be_kind : RowModel.dkind; be_txn : N; be_key : pkey; be_cells : list cell }.

(** a batch: the expected count (mdl_journal.rs:311-312), [BatchMetadata] (376-380), the events *)
Record batch := mk_batch { ba_want : N; ba_tag : tuniq; ba_schema : N; ba_cols : N; ba_evs : list bev }.

(** [DataDeltaKind]'s discriminants, core/model/delta.rs:232-238, written at mdl_journal.rs:151; the
    same as [EventType]'s, mdl_journal.rs:94-100 *)
Definition kind_code (k : RowModel.dkind) : byte :=
  match k with DkDelete => x00 | DkInsert => x01 | DkUpdate => x02 end.

(** [TagUnique]'s discriminants, data/tag.rs:146-152 *)
Definition tuniq_code (t : tuniq) : byte :=
  match t with TuUInt => x00 | TuSInt => x01 | TuBin => x02 | TuStr => x03 | TuIllegal => xff end.

(** [write_row_pk], mdl_journal.rs:158-183: the chunks written. A null key ([TagUnique::Illegal]) is
    undefined behaviour and handled by the caller. *)
Definition key_pieces (k : pkey) : list bytes :=
  match k with
  | PkUInt w | PkSInt w => [u64_le w]
  | PkBin b | PkStr b => [u64_le (len b); b]
  | PkNull => []
  end.

(** [write_row_metadata], [write_row_pk], [write_row_data]: mdl_journal.rs:136-203, the chunks of one
    event; a null cell is the tag byte 0 in both branches of 193-201 *)
Definition ev_pieces (e : bev) : list bytes :=
  [kind_code (be_kind e)] :: u64_le (be_txn e) :: key_pieces (be_key e) ++ map enc_full (be_cells e).

(** [write_row_global_metadata] after the expected count: mdl_journal.rs:119-132, 311-312 *)
Definition head_pieces (b : batch) : list bytes :=
  [u64_le (ba_want b); [tuniq_code (ba_tag b)]; u64_le (ba_schema b); u64_le (ba_cols b)].

(** number of events *)
Definition ev_count (b : batch) : N := N.of_nat (length (ba_evs b)).

(** end of [write_direct], mdl_journal.rs:316-320 *)
Definition tail_pieces (b : batch) : list bytes :=
  (if ev_count b =? ba_want b then [] else [[x03]]) ++ [u64_le (ev_count b)].

(** one event and a whole batch as bytes, without the checksum *)
Definition enc_bev (e : bev) : bytes := concat (ev_pieces e).
(** the body of a batch: its events and its end, as written by [write_batch], storage/v2/impls/mdl_journal.rs:214-298 *)
Definition enc_body (b : batch) : bytes :=
  concat (head_pieces b) ++ concat (map enc_bev (ba_evs b)) ++ concat (tail_pieces b).

Section Write.
Variable cap : N.
(** consecutive [dtrack_write]s with [?] *)
Fixpoint dwrites (w : tw) (l : list bytes) : tw * wres :=
  match l with
  | [] => (w, WOk)
  | b :: l' => wseq (dtrack_write cap w b) (fun w => dwrites w l')
  end.
(** the loop of [write_batch] with [step], mdl_journal.rs:234-246, 262-290: the buffer is flushed after
    each event *)
Fixpoint write_evs (w : tw) (l : list bev) : tw * wres :=
  match l with
  | [] => (w, WOk)
  | e :: l' => wseq (dwrites w (ev_pieces e)) (fun w => wseq (flush_buf w) (fun w => write_evs w l'))
  end.
(** [commit_direct] of the batch adapter, raw/journal/mod.rs:246-258 *)
Definition batch_commit (w : tw) (b : batch) : tw * wres :=
  wseq (dwrites w (head_pieces b)) (fun w =>
  wseq (write_evs w (ba_evs b)) (fun w =>
  wseq (dwrites w (tail_pieces b)) (fun w =>
  let '(w, ck) := reset_partial w in tracked_write cap w (u64_le ck)))).
End Write.

(** ** Reading a batch *)
Section Read.
(** [str::from_utf8] *)
Variable utf8 : bytes -> bool.

(** [TagUnique::try_from_raw], util/compiler.rs:85-94 with data/tag.rs:146-152: the maximum
    discriminant is 0xFF, so every byte is let through; a byte naming no variant, and [Illegal] in
    [decode_primary_key] (mdl_journal.rs:668-671), are undefined behaviour *)
Definition dec_tuniq (b : byte) : res tuniq :=
  match b2n b with 0 => ROk TuUInt | 1 => ROk TuSInt | 2 => ROk TuBin | 3 => ROk TuStr | _ => RUb end.

(** [decode_primary_key], mdl_journal.rs:641-673 *)
Definition dec_pkey (t : tuniq) (l : bytes) : res (pkey * bytes) :=
  match t with
  | TuUInt => let* (w, l1) := rd_u64 SrcRead l in ROk (PkUInt w, l1)
  | TuSInt => let* (w, l1) := rd_u64 SrcRead l in ROk (PkSInt w, l1)
  | TuBin => let* (n, l1) := rd_u64 SrcRead l in let* (b, l2) := rd_block SrcRead n l1 in ROk (PkBin b, l2)
  | TuStr => let* (n, l1) := rd_u64 SrcRead l in let* (b, l2) := rd_block SrcRead n l1 in
             if utf8 b then ROk (PkStr b, l2) else RErr
  | TuIllegal => RUb
  end.

(** [decode_row_data], mdl_journal.rs:674-689: [n] cells are still missing *)
Fixpoint dec_cells (fuel : nat) (n : N) (l : bytes) : res (list cell * bytes) :=
  match fuel with
  | O => RFuel
  | S f =>
      if n =? 0 then ROk ([], l) else
      let* (b, l1) := rd_byte SrcRead l in
      if negb (dscr_valid (b2n b)) then RErr else
      let* (c, l2) := dec_cell utf8 SrcRead (b2n b) l1 in
      let* (cs, l3) := dec_cells f (n - 1) l2 in
      ROk (c :: cs, l3)
  end.

(** [update_state_for_new_event], mdl_journal.rs:461-501; [k] is the event type's byte (0, 1 or 2) *)
Definition dec_bev (t : tuniq) (cols : N) (k : byte) (l : bytes) : res (bev * bytes) :=
  let* (txn, l1) := rd_u64 SrcRead l in
  let* (key, l2) := dec_pkey t l1 in
  match b2n k with
  | 0 => ROk (mk_bev DkDelete txn key [], l2)
  | 1 => let* (cs, l3) := dec_cells (S (length l2)) cols l2 in ROk (mk_bev DkInsert txn key cs, l3)
  | _ => let* (cs, l3) := dec_cells (S (length l2)) cols l2 in ROk (mk_bev DkUpdate txn key cs, l3)
  end.

(** the loop of [decode_apply], raw/journal/mod.rs:274-295: [n] is the number of events still
    expected *)
Fixpoint dec_evs (fuel : nat) (t : tuniq) (cols n : N) (l : bytes) : res (list bev * bytes) :=
  match fuel with
  | O => RFuel
  | S f =>
      if n =? 0 then ROk ([], l) else
      let* (k, l1) := rd_byte SrcRead l in
      if 3 <? b2n k then RErr else
      if b2n k =? 3 then ROk ([], l1) else
      let* (e, l2) := dec_bev t cols k l1 in
      let* (es, l3) := dec_evs f t cols (n - 1) l2 in
      ROk (e :: es, l3)
  end.

(** [decode_apply] up to the actual count, raw/journal/mod.rs:264-303, with [decode_batch_metadata],
    mdl_journal.rs:442-460 *)
Definition dec_body (l : bytes) : res (batch * bytes) :=
  let* (want, l1) := rd_u64 SrcRead l in
  let* (tb, l2) := rd_byte SrcRead l1 in
  let* t := dec_tuniq tb in
  let* (sv, l3) := rd_u64 SrcRead l2 in
  let* (cols, l4) := rd_u64 SrcRead l3 in
  let* (es, l5) := dec_evs (S (length l4)) t cols want l4 in
  let* (actual, l6) := rd_u64 SrcRead l5 in
  if actual =? N.of_nat (length es) then ROk (mk_batch want t sv cols es, l6) else RErr.
End Read.

(** ** Applying a batch at start-up *)

(** names of the columns other than the key, in declaration order: the iterators of
    mdl_journal.rs:193 and 537-540 *)
Definition col_names (l : layout) : list bytes :=
  filter (fun k => negb (bseq k (lo_pk l))) (map fst (lo_fields l)).

(** [data] of mdl_journal.rs:536-550: cells are matched with the columns declared *now* *)
Definition zip_cells (names : list bytes) (cs : list cell) : rfields :=
  fold_left (fun m kv => fst (rf_insert (fst kv) (snd kv) m)) (combine names cs) [].

(** an insert or update of the batch, mdl_journal.rs:517-561; [None] is the assertion of 526-531 *)
Definition fin_put (sv : N) (s : mst) (e : bev) : option mst :=
  let ok := match aget pkey_eqb (be_key e) (m_idx s) with
            | None => true
            | Some i => match nth_error (m_objs s) i with
                        | None => true
                        | Some o => (ro_rev o =? 0) || (ro_rev o <? be_txn e)
                        end
            end in
  if negb ok then None else
  let row := mk_row (be_key e) (zip_cells (col_names (m_lay s)) (be_cells e)) (be_txn e) (N.to_nat sv) in
  Some (set_idx (aput pkey_eqb (be_key e) (length (m_objs s)) (adel pkey_eqb (be_key e) (m_idx s)))
          (set_objs (m_objs s ++ [resolve (m_sd s) row]) s)).

(** the pending deletions, mdl_journal.rs:562-585 *)
Definition fin_del (p : list (pkey * N)) (e : bev) : list (pkey * N) :=
  match aget pkey_eqb (be_key e) p with
  | Some t => if be_txn e <? t then p else aput pkey_eqb (be_key e) (be_txn e) p
  | None => aput pkey_eqb (be_key e) (be_txn e) p
  end.

(** the first loop of [finish], mdl_journal.rs:515-587: state, pending deletions, largest number of an
    insert or update *)
Fixpoint fin_loop (sv : N) (s : mst) (p : list (pkey * N)) (last : N) (es : list bev)
  : option (mst * list (pkey * N) * N) :=
  match es with
  | [] => Some (s, p, last)
  | e :: es' =>
      match be_kind e with
      | DkDelete => fin_loop sv s (fin_del p e) last es'
      | DkInsert | DkUpdate =>
          match fin_put sv s e with
          | None => None
          | Some s' => fin_loop sv s' p (N.max last (be_txn e)) es'
          end
      end
  end.

(** one pending deletion, mdl_journal.rs:589-608 *)
Definition fin_drop (s : mst) (kt : pkey * N) : mst :=
  match aget pkey_eqb (fst kt) (m_idx s) with
  | None => s
  | Some i =>
      match nth_error (m_objs s) i with
      | None => s
      | Some o => if snd kt <? ro_rev o then s else set_idx (adel pkey_eqb (fst kt) (m_idx s)) s
      end
  end.

(** [finish], mdl_journal.rs:502-613; the deletions run in the arbitrary order of a hash map, which
    does not matter as their keys differ *)
Definition finish (s : mst) (b : batch) : option mst :=
  match fin_loop (ba_schema b) s [] 0 (ba_evs b) with
  | None => None
  | Some (s1, p, last) =>
      let s2 := fold_left fin_drop p s1 in
      Some (set_dver (fold_left (fun a kt => N.max a (snd kt)) p last + 1) s2)
  end.

(** [BatchAdapter::decode_apply] with [parse_event_meta], raw/journal/mod.rs:243-245, 259-313 (the
    metadata is cut to a byte; [BatchType] has the single value 0): an undefined tag byte, an error and
    the assertion of [finish] are all [None]. The checksum of the batch is compared after [finish] has
    run (302-312). *)
Definition batch_dec (utf8 : bytes -> bool) (m : N) (s : mst) (l : bytes) : option (mst * bytes) :=
  if negb (m mod 256 =? 0) then None else
  match dec_body utf8 l with
  | ROk (b, l1) =>
      match finish s b with
      | None => None
      | Some s' =>
          match take 8 l1 with
          | None => None
          | Some (ck, l2) =>
              if crc64 (firstn (length l - length l1) l) =? le_dec ck then Some (s', l2) else None
          end
      end
  | _ => None
  end.

(** ** The flusher *)

(** a flush under way: [write_direct] with its [BatchWriter], mdl_journal.rs:206-211, 302-322. [fl_i]
    changes have been taken off the queue. *)
Record flight := mk_fl {
  fl_want : N; fl_i : N; fl_tag : tuniq; fl_schema : N; fl_cols : N; fl_evs : list bev
}.

(** One model: its memory, the batches of its file, the posted [WriteBatch] tasks (fractal/mgr.rs:116),
    the flush under way (there is at most one: [batch_driver().lock()], mgr.rs:542). [b_torn]: bytes of
    a failed batch are in the file. [b_bad]: some batch failed, so that the journal skipped a number
    (raw/mod.rs:585-597) and can no longer be opened (C10). *)
Record bst := mk_bst {
  b_m : mst; b_file : list batch; b_tasks : list N; b_fl : option flight; b_torn : bool; b_bad : bool
}.

(** a freshly created model *)
Definition bst_new (l : layout) : bst := mk_bst (mst_new l) [] [] None false false.

(** result of the writes of one step or of the end of a batch; a failure may leave bytes in the file *)
Inductive wout := WoOk | WoFail (reached : bool).

(** the steps of a model with its file: statements (core/dml), flushes (mdl_journal.rs:214-298) and restarts (storage/v2/mod.rs:120-136) *)
Inductive bop :=
| BStmt (q : rstmt)        (* a client's statement *)
| BTake                    (* post a WriteBatch task for all changes counted so far *)
| BBegin (i : nat)         (* an executor starts the i-th task *)
| BStep (w : wout)         (* the flush takes one change off the queue and writes it *)
| BEnd (w : wout)          (* the flush writes the end of the batch, checksum, and syncs *)
| BRecover                 (* TryModelAutorecoverLWT *)
| BRestart.                (* clean shutdown and start *)

(** what happens: [BoOff] the operation cannot happen now *)
Inductive bout := BoStmt (r : rout) | BoDone | BoFail | BoPanic | BoUb | BoOff.

(** [write_row_data], mdl_journal.rs:192-203, without the key column (which is never among a row's
    fields) *)
Definition row_cells (l : layout) (m : rfields) : list cell :=
  map (fun k => match aget bseq k m with Some c => c | None => CNull end) (col_names l).

(** what one step of a flush does with a change, mdl_journal.rs:262-290 *)
Inductive sres := SrSkip | SrEv (e : bev) | SrUb.
(** [step]: the row's schema deltas are applied in place (core/index/row.rs:142-186) unless the change
    is stale; the event written. Writing a null key is undefined behaviour (mdl_journal.rs:177-180). *)
Definition flush_one (s : mst) (d : ddelta) : mst * sres :=
  match nth_error (m_objs s) (dd_row d) with
  | None => (s, SrUb)
  | Some o =>
      match dd_kind d with
      | DkDelete =>
          match ro_key o with
          | PkNull => (s, SrUb)
          | k => (s, SrEv (mk_bev DkDelete (dd_ver d) k []))
          end
      | kd =>
          if dd_ver d <? ro_rev o then (s, SrSkip) else
          let o1 := resolve (m_sd s) o in
          let s1 := set_objs (upd_nth (dd_row d) o1 (m_objs s)) s in
          match ro_key o with
          | PkNull => (s1, SrUb)
          | k => (s1, SrEv (mk_bev kd (dd_ver d) k (row_cells (m_lay s) (ro_fields o1))))
          end
      end
  end.

(** the driver's status, fractal/drivers.rs:81-84 *)
Definition set_iffy (b : bool) (s : mst) : mst :=
  mk_mst (m_lay s) (m_sd s) (m_objs s) (m_idx s) (m_dver s) (m_queue s) (m_qsize s) b.

(** the n-th task taken out *)
Definition del_nth {A} (n : nat) (l : list A) : list A := firstn n l ++ skipn (S n) l.

(** start-up: the schema is rebuilt from the system log (layout and schema deltas as before the
    shutdown, see GnsModel.v), then the batches are applied in order, storage/v2/mod.rs:131 with
    mdl_journal.rs:69-71 *)
Definition reload_base (s : mst) : mst := mk_mst (m_lay s) (m_sd s) [] [] 0 [] 0 false.
(** the batches of a file in order, [update_state_for_new_event], mdl_journal.rs:461-630, called for each batch of the file *)
Fixpoint apply_batches (s : mst) (l : list batch) : option mst :=
  match l with
  | [] => Some s
  | b :: l' => match finish s b with None => None | Some s' => apply_batches s' l' end
  end.

Section Step.
Variable farith : aop -> N -> N -> N.
Variable order : fieldmap -> fieldmap.

(** failure of [commit_with_ctx]: fractal/mgr.rs:549-560 and [re_enqueue_model_sync], 303-316. [actual]
    is [BatchStats::get_actual]. *)
Definition flush_failed (s : bst) (m : mst) (f : flight) (actual : N) (reached : bool) : bst :=
  mk_bst (set_iffy true m) (b_file s) (b_tasks s ++ [fl_want f - actual]) None
    (b_torn s || reached || match fl_evs f with [] => false | _ => true end) true.

(** One event of the machine. ALTER MODEL needs the namespace lock that a flush holds for reading
    (mgr.rs:377, 474; core/mod.rs:135-139), so it cannot run during a flush. *)
Definition bstep (s : bst) (o : bop) : bst * bout :=
  match o with
  | BStmt q =>
      match q, b_fl s with
      | RAlter _ _, Some _ => (s, BoOff)
      | _, _ =>
          let '(m, r) := rstep farith order (b_m s) q in
          (mk_bst m (b_file s) (b_tasks s) (b_fl s) (b_torn s) (b_bad s), BoStmt r)
      end
  | BTake => (* [__fractal_take_full_from_data_delta], core/model/delta.rs:147-149 *)
      (mk_bst (set_queue (m_queue (b_m s)) 0 (b_m s)) (b_file s) (b_tasks s ++ [m_qsize (b_m s)])
         (b_fl s) (b_torn s) (b_bad s), BoDone)
  | BBegin i => (* [try_write_model_data_batch], mgr.rs:521-549 *)
      match b_fl s, nth_error (b_tasks s) i with
      | None, Some n =>
          let ts := del_nth i (b_tasks s) in
          if m_iffy (b_m s) then (mk_bst (b_m s) (b_file s) (ts ++ [n]) None (b_torn s) (b_bad s), BoFail)
          else if n =? 0 then (mk_bst (b_m s) (b_file s) ts None (b_torn s) (b_bad s), BoDone)
          else
            let lay := m_lay (b_m s) in
            (mk_bst (b_m s) (b_file s) ts
               (Some (mk_fl n 0 (tsel_uniq (lo_ptag lay)) (N.of_nat (sver (b_m s)))
                        (N.of_nat (length (lo_fields lay)) - 1) []))
               (b_torn s) (b_bad s), BoDone)
      | _, _ => (s, BoOff)
      end
  | BStep w => (* one iteration of [write_batch], mdl_journal.rs:234-245 *)
      match b_fl s with
      | None => (s, BoOff)
      | Some f =>
          if fl_want f <=? fl_i f then (s, BoOff) else
          match m_queue (b_m s) with
          | [] => (s, BoPanic)
          | d :: q =>
              let m1 := set_queue q (m_qsize (b_m s)) (b_m s) in
              match flush_one m1 d, w with
              | (m2, SrUb), _ => (s, BoUb)
              | (m2, SrSkip), _ =>
                  (mk_bst m2 (b_file s) (b_tasks s)
                     (Some (mk_fl (fl_want f) (fl_i f + 1) (fl_tag f) (fl_schema f) (fl_cols f) (fl_evs f)))
                     (b_torn s) (b_bad s), BoDone)
              | (m2, SrEv e), WoOk =>
                  (mk_bst m2 (b_file s) (b_tasks s)
                     (Some (mk_fl (fl_want f) (fl_i f + 1) (fl_tag f) (fl_schema f) (fl_cols f) (fl_evs f ++ [e])))
                     (b_torn s) (b_bad s), BoDone)
              | (m2, SrEv e), WoFail r => (flush_failed s (enqueue d m2) f (fl_i f) r, BoFail)
              end
          end
      end
  | BEnd w => (* mdl_journal.rs:316-320, raw/journal/mod.rs:256-257, raw/mod.rs:549-553 *)
      match b_fl s with
      | None => (s, BoOff)
      | Some f =>
          if fl_i f <? fl_want f then (s, BoOff) else
          match w with
          | WoOk =>
              (mk_bst (b_m s)
                 (b_file s ++ [mk_batch (fl_want f) (fl_tag f) (fl_schema f) (fl_cols f) (fl_evs f)])
                 (b_tasks s) None (b_torn s) (b_bad s), BoDone)
          | WoFail r => (flush_failed s (b_m s) f 0 r, BoFail) (* the statistics are still 0 *)
          end
      end
  | BRecover => (* mgr.rs:349-374 with [__lwt_heartbeat], raw/mod.rs:570-581 *)
      match b_fl s with
      | None =>
          if b_torn s then (s, BoFail)
          else (mk_bst (set_iffy false (b_m s)) (b_file s) (b_tasks s) None false (b_bad s), BoDone)
      | Some _ => (s, BoOff)
      end
  | BRestart =>
      match b_fl s with
      | Some _ => (s, BoOff)
      | None =>
          if b_bad s then (s, BoFail) else
          match apply_batches (reload_base (b_m s)) (b_file s) with
          | None => (s, BoPanic)
          | Some m => (mk_bst m (b_file s) [] None false false, BoDone)
          end
      end
  end.

(** a history of the machine; it ends at undefined behaviour or a panic of the flusher or the loader *)
Inductive bhist : bst -> list (bop * bout) -> bst -> Prop :=
| bh_nil s : bhist s [] s
| bh_snoc s h s1 o s2 r : bhist s h s1 -> bstep s1 o = (s2, r) -> r <> BoUb -> r <> BoPanic ->
    r <> BoStmt RoUb -> bhist s (h ++ [(o, r)]) s2.

(** ** The race between DELETE and INSERT: core/dml/del.rs:44-70 in its two steps (the latch taken at
    line 48 is shared, core/index/mod.rs:55-57, so other statements run in between) *)

(** line 50: the change number is taken *)
Definition del_number (s : mst) : mst * N := (bump_dver s, m_dver s).
(** lines 51-69: the row is looked up, removed, and the change queued under the number taken earlier *)
Definition del_apply (s : mst) (v : N) (w : where_) : mst * rout :=
  match resolve_where (m_lay s) w with
  | None => (s, RoErr EWhere)
  | Some x =>
      match aget pkey_eqb (lit_key x) (m_idx s) with
      | None => (s, RoErr ENoRow)
      | Some oid => (enqueue (mk_dd v oid DkDelete) (set_idx (adel pkey_eqb (lit_key x) (m_idx s)) s), RoOk)
      end
  end.
End Step.
