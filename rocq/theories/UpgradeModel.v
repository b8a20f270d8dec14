(** Upgrading a data directory of the old storage format: storage/mod.rs [load], storage/v1/{mod,loader}.rs,
    storage/v2/mod.rs [recreate], storage/v2/impls/mdl_journal.rs [FullModel]. All paths are below
    /repo/server/src/engine/. *)
From Coq Require Import Strings.String List NArith Bool.
From Verif Require Import Bytes AMap DataModel CodecModel GnsCodecModel GnsModel RowModel BatchModel V1Model.
Import ListNotations.
Local Open Scope N_scope.

(** ** Loading the old directory *)

(** the schema deltas of each model: a model starts without any (core/model/mod.rs:178-199); replaying
    ADD and REMOVE publishes one per field (storage/common_encoding/r1/impls/gns/model.rs:354-374,
    444-464 with core/model/mod.rs:470-497) *)
Definition sds : Type := list (ent * list sdelta).
(** helper of the model, without a counterpart in the code: the deltas of one model *)
Definition sds_get (d : sds) (id : ent) : list sdelta := match aget ent_eqb id d with Some l => l | None => [] end.
(** helper of the model, without a counterpart in the code: the deltas of one model *)
Definition mid_ent (m : model_id) : ent := (sid_name (mid_space m), mid_name m).
(** core/model/delta.rs:124-146, as above *)
Definition sds_event (d : sds) (e : gns_event) : sds :=
  match e with
  | EvCreateModel sid name _ => aput ent_eqb (sid_name sid, name) [] d
  | EvAlterModelAdd mid fs =>
      aput ent_eqb (mid_ent mid) (sds_get d (mid_ent mid) ++ map (fun kv => SdAdd (fst kv)) fs) d
  | EvAlterModelRemove mid ks =>
      aput ent_eqb (mid_ent mid) (sds_get d (mid_ent mid) ++ map SdRem ks) d
  | _ => d
  end.

(** [GNSAdapter::decode_and_update_state], storage/v1/raw/journal/mod.rs:55-84: [v1_gns_upd] together
    with the schema deltas *)
Definition v1_upd (utf8 : bytes -> bool) (p : bytes) (g : ns * sds) : vupd (ns * sds) :=
  let d' := match take 2 p with
            | None => snd g
            | Some (o, l) =>
                match dec_event_body utf8 (le_dec o) l with
                | ROk (e, _) => match apply_event (fst g) e with Some _ => sds_event (snd g) e | None => snd g end
                | _ => snd g
                end
            end in
  match v1_gns_upd utf8 p (fst g) with
  | VuOk n => VuOk (n, d')
  | VuErr n => VuErr (n, d')
  | VuDie => VuDie
  end.

(** what names a data file: space and model, each with its uuid ([model_path], storage/common/mod.rs:35-45,
    see PathModel.v; different models have different paths, C62) *)
Definition fid : Type := ((bytes * N) * (bytes * N))%type.
(** helper of the model, without a counterpart in the code: comparing names of files *)
Definition fid_eqb (a b : fid) : bool :=
  bseq (fst (fst a)) (fst (fst b)) && (snd (fst a) =? snd (fst b)) &&
  bseq (fst (snd a)) (fst (snd b)) && (snd (snd a) =? snd (snd b)).

(** the directory as far as the loader looks at it; contents after the file headers (C05). [LgOld]: a
    system log of the old format; [LgNew]: the new log, with the events written, and whether it was
    closed properly. [u_new]: data files of the new format with the batches written. *)
Inductive logfile := LgOld (b : bytes) | LgNew (es : list gns_event) (closed : bool).
(** the files the loader of storage/mod.rs:60-83 looks at, as above *)
Record udisk := mk_ud {
  u_sys : option bytes; u_log : option logfile; u_old : list (fid * bytes); u_new : list (fid * list batch)
}.

(** the models in the order of the loops of storage/v1/loader.rs:51-54 (spaces, then each space's models) *)
Definition space_models (n : ns) : list ent :=
  flat_map (fun ks => map (fun m => (fst ks, m)) (sp_models (snd ks))) (n_spaces n).

(** the file of a model, loader.rs:52-63; [None]: [unwrap] of a model that does not exist *)
Definition file_of (n : ns) (id : ent) : option (fid * layout) :=
  match aget bseq (fst id) (n_spaces n), aget ent_eqb id (n_models n) with
  | Some s, Some m => Some (((fst id, sp_uuid s), (snd id, lo_uuid (md_lay m))), md_lay m)
  | _, _ => None
  end.

(** a model before its data is read *)
Definition base_of (lay : layout) (ds : list sdelta) : mst := mk_mst lay ds [] [] 0 [] 0 false.

Section Load.
Variable utf8 : bytes -> bool.
Variable crc32 : bytes -> N.
(** capacity of the log reader's buffer (std's BufReader: 8 KiB) *)
Variable cap : nat.

(** the loop over the models, loader.rs:51-75; a file that is not there cannot be opened *)
Fixpoint load_tables (n : ns) (d : sds) (files : list (fid * bytes)) (ids : list ent) : vres (list (ent * mst)) :=
  match ids with
  | [] => VrOk []
  | id :: ids' =>
      match file_of n id with
      | None => VrDie
      | Some (f, lay) =>
          match aget fid_eqb f files with
          | None => VrErr
          | Some b =>
              match v1_read_file utf8 v1_apply (base_of lay (sds_get d id)) b with
              | VrOk t =>
                  match load_tables n d files ids' with
                  | VrOk ts => VrOk ((id, t) :: ts)
                  | VrErr => VrErr | VrDie => VrDie | VrFuel => VrFuel
                  end
              | VrErr => VrErr | VrDie => VrDie | VrFuel => VrFuel
              end
          end
      end
  end.

(** [__raw_create_user] for each restored account, storage/v1/mod.rs:53-55 with core/system_db.rs:107-115:
    the answer is not looked at *)
Definition add_users (us : list (bytes * bytes)) (n : ns) : ns :=
  fold_left (fun n u => match aget bseq (fst u) (n_users n) with
                        | Some _ => n
                        | None => set_users (aput bseq (fst u) (snd u) (n_users n)) n
                        end) us n.

(** [load_gns_prepare_migration] without its effects on the disk, storage/v1/mod.rs:47-55, and
    [load_gns], loader.rs:44-92. [ids]: the order the models come in. *)
Definition load_old (ids : ns -> list ent) (d : udisk) : vres (ns * list (ent * mst)) :=
  match u_log d with
  | Some (LgOld lg) =>
      match v_scroll crc32 cap (ns * sds) (v1_upd utf8) lg (ns_empty, []) with
      | VrOk (n, dl, _) =>
          match load_tables n dl (u_old d) (ids n) with
          | VrOk ts =>
              match u_sys d with
              | None => VrErr
              | Some sb =>
                  match sysdb_restore utf8 sb with
                  | VrOk (us, _, _) => VrOk (add_users us n, ts)
                  | VrErr => VrErr | VrDie => VrDie | VrFuel => VrFuel
                  end
              end
          | VrErr => VrErr | VrDie => VrDie | VrFuel => VrFuel
          end
      | VrErr => VrErr | VrDie => VrDie | VrFuel => VrFuel
      end
  | _ => VrErr (* no file, or one with a header of the new format *)
  end.
End Load.

(** ** Writing the new directory *)

(** [FullModel], storage/v2/impls/mdl_journal.rs:325-365: one insert per row, with the row's number, in
    the iteration order [ix] of the index; no schema delta is applied on the way. An index entry without
    an object cannot occur. *)
Definition full_event (s : mst) (ki : pkey * nat) : list bev :=
  match nth_error (m_objs s) (snd ki) with
  | Some o => [mk_bev DkInsert (ro_rev o) (fst ki) (row_cells (m_lay s) (ro_fields o))]
  | None => []
  end.
(** storage/v2/impls/mdl_journal.rs:325-365 *)
Definition full_batch (ix : list (pkey * nat)) (s : mst) : batch :=
  mk_batch (N.of_nat (List.length ix)) (tsel_uniq (lo_ptag (m_lay s))) (N.of_nat (sver s))
    (N.of_nat (List.length (lo_fields (m_lay s))) - 1) (flat_map (full_event s) ix).

(** the events of [recreate], storage/v2/mod.rs:56-96, in the iteration orders of the three maps. A model
    whose space is missing cannot occur ([unwrap] in line 67). *)
Definition ev_space (ks : bytes * mspace) : gns_event :=
  EvCreateSpace (fst ks) (mk_space_layout (sp_uuid (snd ks)) (sp_props (snd ks))).
(** storage/v2/mod.rs:82-86 *)
Definition ev_model (n : ns) (km : ent * mmodel) : gns_event :=
  EvCreateModel (mk_sid (match aget bseq (fst (fst km)) (n_spaces n) with Some s => sp_uuid s | None => 0 end) (fst (fst km)))
    (snd (fst km)) (md_lay (snd km)).
(** storage/v2/mod.rs:93-95 *)
Definition ev_user (u : bytes * bytes) : gns_event := EvCreateUser (fst u) (snd u).
(** storage/v2/mod.rs:57-99 *)
Definition recreate_events (n : ns) (sps : list (bytes * mspace)) (mds : list (ent * mmodel)) (us : list (bytes * bytes))
  : list gns_event := map ev_space sps ++ map (ev_model n) mds ++ map ev_user us.

(** the data files of [recreate]: one batch each *)
Definition new_file (n : ns) (order : ent -> list (pkey * nat) -> list (pkey * nat)) (t : ent * mst) : list (fid * list batch) :=
  match file_of n (fst t) with
  | None => []
  | Some (f, _) => [(f, [full_batch (order (fst t) (m_idx (snd t))) (snd t)])]
  end.

(** ** Starting from the new directory: [restore], storage/v2/mod.rs:119-151, without the change of
    root's password; models load independently, in the order [ids] *)
Fixpoint restore_tables (n : ns) (d : sds) (files : list (fid * list batch)) (ids : list ent) : vres (list (ent * mst)) :=
  match ids with
  | [] => VrOk []
  | id :: ids' =>
      match file_of n id with
      | None => VrDie
      | Some (f, lay) =>
          match aget fid_eqb f files with
          | None => VrErr
          | Some bs =>
              match apply_batches (base_of lay (sds_get d id)) bs with
              | None => VrDie
              | Some t =>
                  match restore_tables n d files ids' with
                  | VrOk ts => VrOk ((id, t) :: ts)
                  | VrErr => VrErr | VrDie => VrDie | VrFuel => VrFuel
                  end
              end
          end
      end
  end.
(** storage/v2/mod.rs:120-156, as above *)
Definition restore_new (ids : ns -> list ent) (es : list gns_event) (files : list (fid * list batch))
  : vres (ns * list (ent * mst)) :=
  match replay ns_empty es with
  | None => VrErr
  | Some n =>
      match restore_tables n (fold_left sds_event es []) files (ids n) with
      | VrOk ts => VrOk (n, ts)
      | VrErr => VrErr | VrDie => VrDie | VrFuel => VrFuel
      end
  end.

(** ** Starting: [load], storage/mod.rs:60-82 *)
Inductive started :=
| StErr                                      (* refused *)
| StDie                                      (* crashed *)
| StNew                                      (* a new, empty database *)
| StUp (n : ns) (ts : list (ent * mst)).     (* up with this content *)
Definition as_started (r : vres (ns * list (ent * mst))) : started :=
  match r with VrOk (n, ts) => StUp n ts | VrErr => StErr | _ => StDie end.

(** A new log that was not closed is refused: its reader meets the end of the file
    (storage/v2/raw/journal/raw/mod.rs:671-684, [r_step] and [r_loop] in JournalModel.v), as is one with the header of
    the old format (C05). *)
Definition start (utf8 : bytes -> bool) (crc32 : bytes -> N) (cap : nat) (ids : ns -> list ent) (d : udisk) : started :=
  match u_sys d with
  | Some _ => as_started (load_old utf8 crc32 cap ids d)
  | None =>
      match u_log d with
      | None => StNew
      | Some (LgOld _) => StErr
      | Some (LgNew es closed) => if closed then as_started (restore_new ids es (u_new d)) else StErr
      end
  end.

(** ** The upgrade, one change of the disk at a time *)

(** Each change is taken to happen completely or not at all. *)
Definition on_log (f : bytes -> bytes) (d : udisk) : udisk :=
  mk_ud (u_sys d) (match u_log d with Some (LgOld b) => Some (LgOld (f b)) | l => l end) (u_old d) (u_new d).
(** helper of the model, without a counterpart in the code: one file changed *)
Definition on_old (f : list (fid * bytes) -> list (fid * bytes)) (d : udisk) : udisk :=
  mk_ud (u_sys d) (u_log d) (f (u_old d)) (u_new d).
(** helper of the model, without a counterpart in the code: one file changed *)
Definition add_bytes (f : fid) (x : bytes) (l : list (fid * bytes)) : list (fid * bytes) :=
  match aget fid_eqb f l with Some b => aput fid_eqb f (b ++ x) l | None => l end.
(** helper of the model, without a counterpart in the code: one file changed *)
Definition add_batch (f : fid) (b : batch) (l : list (fid * list batch)) : list (fid * list batch) :=
  match aget fid_eqb f l with Some bs => aput fid_eqb f (bs ++ [b]) l | None => l end.
(** helper of the model, without a counterpart in the code: one file changed *)
Definition new_event (e : gns_event) (d : udisk) : udisk :=
  mk_ud (u_sys d) (match u_log d with Some (LgNew es c) => Some (LgNew (es ++ [e]) c) | l => l end) (u_old d) (u_new d).
(** helper of the model, without a counterpart in the code: one file changed *)
Definition on_new (f : list (fid * list batch) -> list (fid * list batch)) (d : udisk) : udisk :=
  mk_ud (u_sys d) (u_log d) (u_old d) (f (u_new d)).

(** The changes in order. [id] is the number of the log's next record; [fs] the data files in the order
    they are opened (loader.rs:51-75), [fs2] in the order they are closed (88-91), [fs3] in the order they
    are moved (util/os.rs:489-508).
    - the log is reopened: storage/v1/raw/journal/raw.rs:370-377, loader.rs:46-47
    - each data file is reopened: storage/v1/raw/batch_jrnl/persist.rs:43-50
    - the log and the data files are closed: loader.rs:87-91, raw.rs:379-387, persist.rs:51-58
    - the data files, the log and the account file are moved away: storage/v1/mod.rs:61-67
    - the new log is made, spaces, models with their files, accounts are written: storage/v2/mod.rs:56-96 *)
Definition upgrade_steps (id : N) (fs fs2 fs3 : list fid) (n : ns) (sps : list (bytes * mspace))
    (mds : list (ent * mmodel)) (us : list (bytes * bytes)) (batch_of : ent -> batch) : list (udisk -> udisk) :=
  [on_log (fun b => b ++ v_mark id SRC_REOPENED)]
  ++ map (fun f => on_old (add_bytes f [MK_REOPEN])) fs
  ++ [on_log (fun b => b ++ v_mark (id + 1) SRC_CLOSED)]
  ++ map (fun f => on_old (add_bytes f [MK_CLOSED])) fs2
  ++ map (fun f => on_old (adel fid_eqb f)) fs3
  ++ [fun d => mk_ud (u_sys d) None (u_old d) (u_new d)]
  ++ [fun d => mk_ud None (u_log d) (u_old d) (u_new d)]
  ++ [fun d => mk_ud (u_sys d) (Some (LgNew [] false)) (u_old d) (u_new d)]
  ++ map (fun ks => new_event (ev_space ks)) sps
  ++ flat_map (fun km =>
       match file_of n (fst km) with
       | None => []
       | Some (f, _) => [on_new (fun l => l ++ [(f, [])]); new_event (ev_model n km); on_new (add_batch f (batch_of (fst km)))]
       end) mds
  ++ map (fun u => new_event (ev_user u)) us.

(** the disk after the first [j] changes *)
Definition after_steps (steps : list (udisk -> udisk)) (j : nat) (d : udisk) : udisk :=
  fold_left (fun d f => f d) (firstn j steps) d.

(** ** After the upgrade *)

(** The server goes on with the state it loaded; a restart finds the model's definition in the log,
    without the [k] schema deltas it had before the upgrade. [up_step] is [bstep] except for that. *)
Definition up_model (s : mst) (ix : list (pkey * nat)) : nat * bst :=
  (sver s, mk_bst s [full_batch ix s] [] None false false).
(** one operation of the server after an upgrade, as above *)
Definition up_step (farith : aop -> N -> N -> N) (order : fieldmap -> fieldmap) (ks : nat * bst) (o : bop)
  : (nat * bst) * bout :=
  let '(k, s) := ks in
  match o with
  | BRestart =>
      match b_fl s with
      | Some _ => (ks, BoOff)
      | None =>
          if b_bad s then (ks, BoFail) else
          match apply_batches (base_of (m_lay (b_m s)) (skipn k (m_sd (b_m s)))) (b_file s) with
          | None => (ks, BoPanic)
          | Some m => ((0%nat, mk_bst m (b_file s) [] None false false), BoDone)
          end
      end
  | _ => let '(s', r) := bstep farith order s o in ((k, s'), r)
  end.
(** a sequence of operations *)
Definition up_run (farith : aop -> N -> N -> N) (order : fieldmap -> fieldmap) (ks : nat * bst) (l : list bop)
  : (nat * bst) * list bout :=
  fold_left (fun acc o => let '(k, r) := up_step farith order (fst acc) o in (k, snd acc ++ [r])) l (ks, []).
