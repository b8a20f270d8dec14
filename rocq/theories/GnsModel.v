(** The global namespace: spaces, models, users, the statements that change them, the system log
    and its replay. core/{space,mod,system_db,dcl,exec}.rs, core/model/{mod,alt}.rs,
    fractal/drivers.rs, storage/common_encoding/{r1/impls/gns/*,r2}.rs, storage/v2/mod.rs.

    Statements are taken after parsing. Locks are not modelled: a statement runs to completion before
    the next one (each holds the namespace's write lock while it works). Row data and model files are
    not part of this model, except for the row count that DROP MODEL looks at. *)
From Coq Require Import Strings.String List NArith Bool.
From Verif Require Import Bytes AMap DataModel CodecModel GnsCodecModel DictModel TypeModel.
Import ListNotations.
Local Open Scope N_scope.

(** ** State *)

(** [Space], core/space.rs:41-45 *)
Record mspace := mk_mspace { sp_uuid : N; sp_models : list bytes; sp_props : dict }.

(** [ModelData], core/model/mod.rs:82-91, without rows: the persisted layout and the schema version
    (core/model/delta.rs:44-52; a natural number, the code's u64 does not reach 2^64) *)
Record mmodel := mk_mmodel { md_lay : layout; md_ver : N }.

(** [EntityID], core/util.rs:32-37: space and model name *)
Definition ent : Type := bytes * bytes.
(** equality of [EntityID]s, core/util.rs:67-71 *)
Definition ent_eqb (a b : ent) : bool := bseq (fst a) (fst b) && bseq (snd a) (snd b).

(** [GNSData], core/mod.rs:87-91: [idx], [idx_mdl], [sys_db] (name to password hash) *)
Record ns := mk_ns {
  n_spaces : list (bytes * mspace);
  n_models : list (ent * mmodel);
  n_users : list (bytes * bytes)
}.
(** [GNSData::empty], core/mod.rs:94-100 *)
Definition ns_empty : ns := mk_ns [] [] [].

(** [GlobalNS]: the namespace, the system log as the list of committed events, and the driver's
    [iffy] flag (fractal/drivers.rs:42-46) *)
Record world := mk_world { w_ns : ns; w_log : list gns_event; w_iffy : bool }.

(** field updates (no counterpart: Rust assigns in place) *)
Definition set_spaces (s : list (bytes * mspace)) (n : ns) : ns := mk_ns s (n_models n) (n_users n).
(** field update, as above *)
Definition set_models (m : list (ent * mmodel)) (n : ns) : ns := mk_ns (n_spaces n) m (n_users n).
(** field update, as above *)
Definition set_users (u : list (bytes * bytes)) (n : ns) : ns := mk_ns (n_spaces n) (n_models n) u.
(** field update, as above *)
Definition with_ns (w : world) (n : ns) : world := mk_world n (w_log w) (w_iffy w).

(** [HashSet::contains/insert/remove] on a space's model names, core/space.rs:79-84 *)
Definition set_has (x : bytes) (l : list bytes) : bool := existsb (bseq x) l.
(** [insert] of the [HashSet], core/space.rs:79-84 *)
Definition set_add (x : bytes) (l : list bytes) : list bytes := if set_has x l then l else l ++ [x].
(** [remove] of the [HashSet], core/space.rs:79-84 *)
Definition set_del (x : bytes) (l : list bytes) : list bytes := filter (fun y => negb (bseq x y)) l.

(** The ordered field map, idx/stord/mod.rs: [st_insert] appends unless present (382-387), [st_delete]
    (462-480), [st_update] replaces the value *and moves the entry to the end* (432-447, 512-529) *)
Definition f_get (k : bytes) (m : fieldmap) : option field := aget bseq k m.
(** [st_contains], idx/stord/mod.rs:633 *)
Definition f_has (k : bytes) (m : fieldmap) : bool :=
  match f_get k m with Some _ => true | None => false end.
(** [st_insert] by [_insert], idx/stord/mod.rs:382-387 *)
Definition f_insert (k : bytes) (v : field) (m : fieldmap) : fieldmap * bool :=
  if f_has k m then (m, false) else (m ++ [(k, v)], true).
(** [st_delete] by [_remove], idx/stord/mod.rs:462-480 *)
Definition f_delete (k : bytes) (m : fieldmap) : fieldmap * bool :=
  if f_has k m then (adel bseq k m, true) else (m, false).
(** [st_update] by [_update], idx/stord/mod.rs:432-446 *)
Definition f_update (k : bytes) (v : field) (m : fieldmap) : fieldmap * bool :=
  if f_has k m then (adel bseq k m ++ [(k, v)], true) else (m, false).

(** ** The model mutator, core/model/mod.rs:470-497; a schema delta is published per added or removed
    field (core/model/delta.rs:133-142) *)
Definition set_fields (f : fieldmap) (m : mmodel) : mmodel :=
  mk_mmodel (mk_layout (lo_uuid (md_lay m)) (lo_pk (md_lay m)) (lo_ptag (md_lay m)) f) (md_ver m).
(** the new version after a change of the fields, core/model/delta.rs:133-137 *)
Definition bump (m : mmodel) : mmodel := mk_mmodel (md_lay m) (md_ver m + 1).
(** [ModelMutator::add_field], core/model/mod.rs:483-493 *)
Definition mut_add (k : bytes) (v : field) (m : mmodel) : mmodel * bool :=
  let '(f, r) := f_insert k v (lo_fields (md_lay m)) in (bump (set_fields f m), r).
(** [ModelMutator::remove_field], core/model/mod.rs:474-482 *)
Definition mut_rem (k : bytes) (m : mmodel) : mmodel * bool :=
  let '(f, r) := f_delete k (lo_fields (md_lay m)) in (bump (set_fields f m), r).
(** [ModelMutator::update_field], core/model/mod.rs:494-496 *)
Definition mut_upd (k : bytes) (v : field) (m : mmodel) : mmodel * bool :=
  let '(f, r) := f_update k v (lo_fields (md_lay m)) in (set_fields f m, r).

(** live: results of the mutator ignored, core/model/alt.rs:287-291, 306-308, 321-323 *)
Definition live_add (fs : fieldmap) (m : mmodel) : mmodel :=
  fold_left (fun m kv => fst (mut_add (fst kv) (snd kv) m)) fs m.
(** core/model/alt.rs:306-308 *)
Definition live_rem (ks : list bytes) (m : mmodel) : mmodel :=
  fold_left (fun m k => fst (mut_rem k m)) ks m.
(** core/model/alt.rs:321-323 *)
Definition live_upd (fs : fieldmap) (m : mmodel) : mmodel :=
  fold_left (fun m kv => fst (mut_upd (fst kv) (snd kv) m)) fs m.

(** replay: a refused mutation is an error, r1/impls/gns/model.rs:364-370 *)
Fixpoint replay_add (fs : fieldmap) (m : mmodel) : option mmodel :=
  match fs with
  | [] => Some m
  | (k, v) :: fs' => let '(m', r) := mut_add k v m in if r then replay_add fs' m' else None
  end.
(** r1/impls/gns/model.rs:454-460 *)
Fixpoint replay_rem (ks : list bytes) (m : mmodel) : option mmodel :=
  match ks with
  | [] => Some m
  | k :: ks' => let '(m', r) := mut_rem k m in if r then replay_rem ks' m' else None
  end.
(** r1/impls/gns/model.rs:535-541 *)
Fixpoint replay_upd (fs : fieldmap) (m : mmodel) : option mmodel :=
  match fs with
  | [] => Some m
  | (k, v) :: fs' => let '(m', r) := mut_upd k v m in if r then replay_upd fs' m' else None
  end.

(** ** Replay of one event ([update_global_state]); [None] is any restore error *)

(** [with_space], r1/impls/gns/model.rs:129-142 *)
Definition with_space {A} (n : ns) (sid : space_id) (f : mspace -> option A) : option A :=
  match aget bseq (sid_name sid) (n_spaces n) with
  | None => None
  | Some s => if sp_uuid s =? sid_uuid sid then f s else None
  end.
(** [with_model_mut], r1/impls/gns/model.rs:159-177 *)
Definition with_model_mut (n : ns) (mid : model_id) (f : mmodel -> option mmodel) : option ns :=
  with_space n (mid_space mid) (fun _ =>
    let id := (sid_name (mid_space mid), mid_name mid) in
    match aget ent_eqb id (n_models n) with
    | None => None
    | Some m =>
        if lo_uuid (md_lay m) =? mid_uuid mid then
          match f m with
          | Some m' => Some (set_models (aput ent_eqb id m' (n_models n)) n)
          | None => None
          end
        else None
    end).

(** [Space] from its restored layout, core/space.rs:70-72 ([new_restore_empty]): no models yet *)
Definition space_of_layout (s : space_layout) : mspace := mk_mspace (sl_uuid s) [] (sl_props s).

(** r1/impls/gns/space.rs:100-114 (create), 174-196 (alter), 227-257 (drop);
    r1/impls/gns/model.rs:255-293 (create), 354-374 (add), 444-464 (remove), 525-545 (update),
    582-609 (drop); r2.rs:49-62 (create user), 136-149 (alter user), 198-211 (drop user). A panic
    during replay also ends the restore. *)
Definition apply_event (n : ns) (e : gns_event) : option ns :=
  match e with
  | EvCreateSpace name sp =>
      match aget bseq name (n_spaces n) with
      | Some _ => None
      | None => Some (set_spaces (aput bseq name (space_of_layout sp) (n_spaces n)) n)
      end
  | EvAlterSpace sid props =>
      match aget bseq (sid_name sid) (n_spaces n) with
      | None => None
      | Some s =>
          match merge_metadata (sp_props s) props with
          | Some (Some d) =>
              Some (set_spaces (aput bseq (sid_name sid) (mk_mspace (sp_uuid s) (sp_models s) d)
                                  (n_spaces n)) n)
          | _ => None
          end
      end
  | EvDropSpace sid =>
      match aget bseq (sid_name sid) (n_spaces n) with
      | None => None
      | Some s =>
          if sp_uuid s =? sid_uuid sid then
            Some (set_spaces (adel bseq (sid_name sid) (n_spaces n))
                   (set_models (fold_left (fun ms m => adel ent_eqb (sid_name sid, m) ms)
                                  (sp_models s) (n_models n)) n))
          else None
      end
  | EvCreateModel sid name lay =>
      match aget bseq (sid_name sid) (n_spaces n) with
      | None => None
      | Some s =>
          if set_has name (sp_models s) then None else
          match aget ent_eqb (sid_name sid, name) (n_models n) with
          | Some _ => None
          | None =>
              Some (set_spaces (aput bseq (sid_name sid)
                                  (mk_mspace (sp_uuid s) (set_add name (sp_models s)) (sp_props s))
                                  (n_spaces n))
                     (set_models (aput ent_eqb (sid_name sid, name) (mk_mmodel lay 0) (n_models n)) n))
          end
      end
  | EvAlterModelAdd mid fs => with_model_mut n mid (replay_add fs)
  | EvAlterModelRemove mid ks => with_model_mut n mid (replay_rem ks)
  | EvAlterModelUpdate mid fs => with_model_mut n mid (replay_upd fs)
  | EvDropModel mid =>
      with_space n (mid_space mid) (fun s =>
        let id := (sid_name (mid_space mid), mid_name mid) in
        if negb (set_has (mid_name mid) (sp_models s)) then None else
        match aget ent_eqb id (n_models n) with
        | None => None
        | Some m =>
            if lo_uuid (md_lay m) =? mid_uuid mid then
              Some (set_spaces (aput bseq (sid_name (mid_space mid))
                                  (mk_mspace (sp_uuid s) (set_del (mid_name mid) (sp_models s)) (sp_props s))
                                  (n_spaces n))
                     (set_models (adel ent_eqb id (n_models n)) n))
            else None
        end)
  | EvCreateUser name h =>
      match aget bseq name (n_users n) with
      | Some _ => None
      | None => Some (set_users (aput bseq name h (n_users n)) n)
      end
  | EvAlterUser name h =>
      match aget bseq name (n_users n) with
      | None => None
      | Some _ => Some (set_users (aput bseq name h (n_users n)) n)
      end
  | EvDropUser name =>
      match aget bseq name (n_users n) with
      | None => None
      | Some _ => Some (set_users (adel bseq name (n_users n)) n)
      end
  end.

(** replaying a log into a namespace: the journal reader applies event by event
    (storage/v2/impls/gns_log.rs, [decode_apply]) *)
Fixpoint replay (n : ns) (l : list gns_event) : option ns :=
  match l with
  | [] => Some n
  | e :: l' => match apply_event n e with Some n' => replay n' l' | None => None end
  end.

(** ** Statements *)

(** [QueryError], engine/error.rs:45-104 *)
Inductive qerr :=
| ErrNotFound | ErrExists | ErrProps | ErrNotEmpty | ErrType | ErrBadDef | ErrAlter | ErrField
| ErrNeedLock | ErrServer | ErrAuth | ErrPermission.

(** what the client sees: [Response::Empty], [Response::Bool], an error; or the task panics *)
Inductive outcome := OEmpty | OBool (b : bool) | OErr (e : qerr) | OPanic.

(** outside inputs of one statement: the uuid generated, whether the space directory or model file
    could be made, whether the log write succeeds, the row count of the model to drop, the salt of
    the password hash *)
Record env := mk_env { e_uuid : N; e_init : bool; e_commit : bool; e_rows : N; e_salt : N }.

(** [FieldSpec], ql/ddl/syn.rs:344-353 *)
Record field_spec := mk_fs { fs_name : bytes; fs_layers : list layer_spec; fs_null : bool; fs_primary : bool }.
(** [ExpandedField], ql/ddl/syn.rs:405-409 *)
Record exp_field := mk_ef { ef_name : bytes; ef_layers : list layer_spec; ef_props : dict }.

(** [AlterKind], ql/ddl/alt.rs:93-110 *)
Inductive alter_kind :=
| AkAdd (fs : list exp_field)
| AkRemove (ks : list bytes)
| AkUpdate (fs : list exp_field).

(** the parsed blocking statements: ql/ddl/{crt,alt,drop}.rs, ql/dcl.rs *)
Inductive stmt :=
| SCreateSpace (name : bytes) (props : dict) (if_nx : bool)
| SAlterSpace (name : bytes) (props : dict)
| SDropSpace (name : bytes) (force if_ex : bool)
| SCreateModel (id : ent) (fields : list field_spec) (props : dict) (if_nx : bool)
| SAlterModel (id : ent) (k : alter_kind)
| SDropModel (id : ent) (force if_ex : bool)
| SCreateUser (name : bytes) (opts : dict)
| SAlterUser (name : bytes) (opts : dict)
| SDropUser (name : bytes)
| SReportStatus.

(** fractal/drivers.rs:57-78 [driver_context] around [commit_event] *)
Definition driver_commit (cok : bool) (e : gns_event) (w : world) : world * bool :=
  if w_iffy w then (w, false)
  else if cok then (mk_world (w_ns w) (w_log w ++ [e]) false, true)
  else (mk_world (w_ns w) (w_log w) true, false).

(** [if cond { Ok(Some(b)) } else { Ok(None) }], e.g. core/space.rs:183-187, through
    [translate_ddl_result], core/exec.rs:97-102 *)
Definition opt_bool (cond b : bool) : outcome := if cond then OBool b else OEmpty.

(** core/space.rs:101 *)
Definition KEY_ENV : bytes := bstr "env"%string.

(** core/space.rs:104-142 [Space::process_create], the properties *)
Definition create_space_props (props : dict) : option dict :=
  match dget KEY_ENV props with
  | Some d =>
      if Nat.eqb (length props) 1 then
        match d with
        | DData c => if cell_init c then None else Some (flatten (aput bseq KEY_ENV (DMap []) props))
        | DMap _ => Some (flatten props)
        end
      else None
  | None => match props with [] => Some (flatten [(KEY_ENV, DMap [])]) | _ => None end
  end.

(** core/space.rs:146-189 *)
Definition exec_create_space (en : env) (w : world) (name : bytes) (props : dict) (if_nx : bool)
  : world * outcome :=
  match create_space_props props with
  | None => (w, OErr ErrProps)
  | Some p =>
      match aget bseq name (n_spaces (w_ns w)) with
      | Some _ => (w, if if_nx then OBool false else OErr ErrExists)
      | None =>
          if negb (e_init en) then (w, OErr ErrServer) else
          let '(w1, ok) := driver_commit (e_commit en)
                             (EvCreateSpace name (mk_space_layout (e_uuid en) p)) w in
          if ok then
            (with_ns w1 (set_spaces (aput bseq name (mk_mspace (e_uuid en) [] p) (n_spaces (w_ns w1))) (w_ns w1)),
             opt_bool if_nx true)
          else (w1, OErr ErrServer)
      end
  end.

(** core/space.rs:191-234 *)
Definition exec_alter_space (en : env) (w : world) (name : bytes) (props : dict) : world * outcome :=
  match aget bseq name (n_spaces (w_ns w)) with
  | None => (w, OErr ErrNotFound)
  | Some s =>
      let go :=
        match prepare_patch (sp_props s) props with
        | None => (w, OErr ErrProps)
        | Some patch =>
            let '(w1, ok) := driver_commit (e_commit en) (EvAlterSpace (mk_sid (sp_uuid s) name) patch) w in
            if ok then
              match merge (sp_props s) patch with
              | None => (w1, OPanic)
              | Some d =>
                  let d' := match dget KEY_ENV d with Some _ => d | None => aput bseq KEY_ENV (DMap []) d end in
                  (with_ns w1 (set_spaces (aput bseq name (mk_mspace (sp_uuid s) (sp_models s) d')
                                             (n_spaces (w_ns w1))) (w_ns w1)), OEmpty)
              end
            else (w1, OErr ErrServer)
        end in
      match dget KEY_ENV props with
      | Some (DMap _) => if Nat.eqb (length props) 1 then go else (w, OErr ErrProps)
      | Some (DData c) =>
          if Nat.eqb (length props) 1 && negb (cell_init c) then go else (w, OErr ErrProps)
      | None => match props with [] => (w, OEmpty) | _ => (w, OErr ErrProps) end
      end
  end.

(** core/space.rs:275-288: [models.st_delete_return(&e).unwrap()] for each model of the space *)
Fixpoint drop_models (sp : bytes) (names : list bytes) (ms : list (ent * mmodel)) : option (list (ent * mmodel)) :=
  match names with
  | [] => Some ms
  | m :: names' =>
      match aget ent_eqb (sp, m) ms with
      | None => None
      | Some _ => drop_models sp names' (adel ent_eqb (sp, m) ms)
      end
  end.

(** core/space.rs:235-324. With [force] the space is removed from the index before the transaction
    is committed (249) *)
Definition exec_drop_space (en : env) (w : world) (name : bytes) (force if_ex : bool) : world * outcome :=
  match aget bseq name (n_spaces (w_ns w)) with
  | None => (w, if if_ex then OBool false else OErr ErrNotFound)
  | Some s =>
      let ev := EvDropSpace (mk_sid (sp_uuid s) name) in
      if force then
        let w0 := with_ns w (set_spaces (adel bseq name (n_spaces (w_ns w))) (w_ns w)) in
        let '(w1, ok) := driver_commit (e_commit en) ev w0 in
        if ok then
          match drop_models name (sp_models s) (n_models (w_ns w1)) with
          | None => (w1, OPanic)
          | Some ms => (with_ns w1 (set_models ms (w_ns w1)), opt_bool if_ex true)
          end
        else (w1, OErr ErrServer)
      else
        match sp_models s with
        | _ :: _ => (w, OErr ErrNotEmpty)
        | [] =>
            let '(w1, ok) := driver_commit (e_commit en) ev w in
            if ok then (with_ns w1 (set_spaces (adel bseq name (n_spaces (w_ns w1))) (w_ns w1)), opt_bool if_ex true)
            else (w1, OErr ErrServer)
        end
  end.

(** the loop of core/model/mod.rs:243-268: fields so far, last primary key, number of primary keys;
    [inl true]: a field type was refused (line 266), [inl false]: the loop ended with [okay] false *)
Fixpoint create_fields (l : list field_spec) (fs : fieldmap) (pk : option bytes) (cnt : N)
  : (bool + (fieldmap * option bytes * N)) :=
  match l with
  | [] => inr (fs, pk, cnt)
  | s :: l' =>
      let '(pk1, cnt1, ok1) :=
        if fs_primary s then (Some (fs_name s), cnt + 1, negb (fs_null s)) else (pk, cnt, true) in
      match parse_layers (fs_layers s) (fs_null s) with
      | None => inl true
      | Some f =>
          let '(fs1, ok2) := f_insert (fs_name s) f fs in
          if ok1 && ok2 then create_fields l' fs1 pk1 cnt1 else inl false
      end
  end.

(** [TagUnique::is_unique], data/tag.rs:155-157 *)
Definition tuniq_is_unique (u : tuniq) : bool := match u with TuIllegal => false | _ => true end.

(** core/model/mod.rs:229-284 [ModelData::process_create] *)
Definition process_create_model (uuid : N) (fields : list field_spec) (props : dict) : qerr + layout :=
  match props, fields with
  | [], _ :: _ =>
      match create_fields fields [] None 0 with
      | inl true => inl ErrType
      | inl false => inl ErrBadDef
      | inr (fs, pk, cnt) =>
          if cnt <=? 1 then
            let pk := match pk with Some k => Some k | None => match fs with (k, _) :: _ => Some k | [] => None end end in
            match pk with
            | None => inl ErrBadDef
            | Some k =>
                match f_get k fs with
                | Some (mk_field _ (t :: _)) =>
                    if tuniq_is_unique (tsel_uniq t) then inr (mk_layout uuid k t fs) else inl ErrBadDef
                | _ => inl ErrBadDef
                end
            end
          else inl ErrBadDef
      end
  | _, _ => inl ErrBadDef
  end.

(** core/model/mod.rs:288-348 *)
Definition exec_create_model (en : env) (w : world) (id : ent) (fields : list field_spec) (props : dict)
    (if_nx : bool) : world * outcome :=
  match process_create_model (e_uuid en) fields props with
  | inl e => (w, OErr e)
  | inr lay =>
      match aget bseq (fst id) (n_spaces (w_ns w)) with
      | None => (w, OErr ErrNotFound)
      | Some s =>
          if set_has (snd id) (sp_models s) then (w, if if_nx then OBool false else OErr ErrExists) else
          if negb (e_init en) then (w, OErr ErrServer) else
          let '(w1, ok) := driver_commit (e_commit en)
                             (EvCreateModel (mk_sid (sp_uuid s) (fst id)) (snd id) lay) w in
          if ok then
            let n := w_ns w1 in
            (with_ns w1 (set_spaces (aput bseq (fst id)
                                       (mk_mspace (sp_uuid s) (set_add (snd id) (sp_models s)) (sp_props s))
                                       (n_spaces n))
                          (set_models (aput ent_eqb id (mk_mmodel lay 0) (n_models n)) n)),
             opt_bool if_nx true)
          else (w1, OErr ErrServer)
      end
  end.

(** core/model/mod.rs:349-410 *)
Definition exec_drop_model (en : env) (w : world) (id : ent) (force if_ex : bool) : world * outcome :=
  match aget bseq (fst id) (n_spaces (w_ns w)) with
  | None => (w, OErr ErrNotFound)
  | Some s =>
      if negb (set_has (snd id) (sp_models s)) then (w, if if_ex then OBool false else OErr ErrNotFound) else
      match aget ent_eqb id (n_models (w_ns w)) with
      | None => (w, OPanic)
      | Some m =>
          if negb (e_rows en =? 0) && negb force then (w, OErr ErrNotEmpty) else
          let '(w1, ok) := driver_commit (e_commit en)
              (EvDropModel (mk_mid (mk_sid (sp_uuid s) (fst id)) (snd id) (md_ver m) (lo_uuid (md_lay m)))) w in
          if ok then
            let n := w_ns w1 in
            (with_ns w1 (set_spaces (aput bseq (fst id)
                                       (mk_mspace (sp_uuid s) (set_del (snd id) (sp_models s)) (sp_props s))
                                       (n_spaces n))
                          (set_models (adel ent_eqb id (n_models n)) n)),
             opt_bool if_ex true)
          else (w1, OErr ErrServer)
      end
  end.

(** core/model/alt.rs:83-89 [check_nullable]: the flag and the remaining properties; the outer [None]
    is the panic of [b.bool()] on a null value (data/cell.rs: null has kind Bool) *)
Definition check_nullable (props : dict) : option (qerr + (bool * dict)) :=
  let rest := adel bseq (bstr "nullable"%string) props in
  match dget (bstr "nullable"%string) props with
  | Some (DData (CBool b)) => Some (inr (b, rest))
  | Some (DData CNull) => None
  | Some _ => Some (inl ErrProps)
  | None => Some (inr (false, rest))
  end.

(** core/model/alt.rs:185-195 [interop] *)
Definition interop (c n : tsel) : bool :=
  tclass_eqb (tsel_class c) (tsel_class n) &&
  (tclass_eqb (tsel_class c) TcUInt || tclass_eqb (tsel_class c) TcSInt || tclass_eqb (tsel_class c) TcFloat).

(** the loop of core/model/alt.rs:212-243 over the zipped layers (outermost first): [no_lock], whether
    a layer changed, [okay], new layers *)
Fixpoint ldeltas_go (ls : list layer_spec) (cur : list tsel) (nolock delta : bool)
  : qerr + (bool * bool * bool * list tsel) :=
  match ls, cur with
  | l :: ls', c :: cur' =>
      let ok := match ls_props l with [] => true | _ => false end in
      match get_layer (ls_ty l) with
      | None => inl ErrType
      | Some t =>
          let same := tsel_eqb c t in
          if same || interop c t then
            let nolock' := nolock && (same || (tsel_code c <=? tsel_code t)) in
            let delta' := delta || negb same in
            if ok then
              match ldeltas_go ls' cur' nolock' delta' with
              | inl e => inl e
              | inr (nl, d, okr, ts) => inr (nl, d, okr, t :: ts)
              end
            else inr (nolock', delta', false, t :: cur')
          else inl ErrType
      end
  | _, cur => inr (nolock, delta, true, cur)
  end.

(** core/model/alt.rs:177-253 [ldeltas]: [no_lock], whether anything changes, the new field *)
Definition ldeltas (cur : field) (ls : list layer_spec) (nullable : bool) : qerr + (bool * bool * field) :=
  if Nat.ltb (length (f_layers cur)) (length ls) then inl ErrAlter else
  match ldeltas_go (rev ls) (f_layers cur) (negb (f_null cur && negb nullable)) (xorb (f_null cur) nullable) with
  | inl e => inl e
  | inr (nl, d, ok, ts) => if ok then inr (nl, d, mk_field nullable ts) else inl ErrAlter
  end.

(** [AlterAction], core/model/alt.rs:60-65 *)
Inductive alter_action :=
| AaIgnore
| AaAdd (fs : fieldmap)
| AaUpdate (fs : fieldmap)
| AaRemove (ks : list bytes).

(** [HashSet::insert] returning false on a repeated name, core/model/alt.rs:101-104 *)
Fixpoint no_dups (l : list bytes) : bool :=
  match l with [] => true | x :: l' => negb (set_has x l') && no_dups l' end.

(** core/model/alt.rs:105-119: the first name that is the primary key or missing decides *)
Fixpoint rem_check (pk : bytes) (fs : fieldmap) (ks : list bytes) : option qerr :=
  match ks with
  | [] => None
  | k :: ks' =>
      if negb (bseq k pk) && f_has k fs then rem_check pk fs ks'
      else if f_has k fs then Some ErrAlter else Some ErrField
  end.

(** core/model/alt.rs:121-139: outer [None] is a panic; properties other than [nullable] are not
    looked at *)
Fixpoint add_plan (pk : bytes) (fs : fieldmap) (l : list exp_field) (add : fieldmap)
  : option (qerr + fieldmap) :=
  match l with
  | [] => Some (inr add)
  | x :: l' =>
      match check_nullable (ef_props x) with
      | None => None
      | Some (inl e) => Some (inl e)
      | Some (inr (nullable, _)) =>
          match parse_layers (ef_layers x) nullable with
          | None => Some (inl ErrType)
          | Some f =>
              let '(add', fresh) := f_insert (ef_name x) f add in
              if negb (f_has (ef_name x) fs) && negb (bseq (ef_name x) pk) && fresh
              then add_plan pk fs l' add' else Some (inl ErrAlter)
          end
      end
  end.

(** core/model/alt.rs:140-175: [no_lock], any delta, the updated fields in statement order *)
Fixpoint upd_plan (pk : bytes) (fs : fieldmap) (l : list exp_field) (nolock delta : bool) (new : fieldmap)
  : option (qerr + (bool * bool * fieldmap)) :=
  match l with
  | [] => Some (inr (nolock, delta, new))
  | x :: l' =>
      if bseq (ef_name x) pk then Some (inl ErrAlter) else
      match f_get (ef_name x) fs with
      | None => Some (inl ErrField)
      | Some cur =>
          match check_nullable (ef_props x) with
          | None => None
          | Some (inl e) => Some (inl e)
          | Some (inr (nullable, rest)) =>
              match ldeltas cur (ef_layers x) nullable with
              | inl e => Some (inl e)
              | inr (nl, d, f) =>
                  let '(new', fresh) := f_insert (ef_name x) f new in
                  if match rest with [] => true | _ => false end && fresh
                  then upd_plan pk fs l' (nolock && nl) (delta || d) new'
                  else Some (inl ErrAlter)
              end
          end
      end
  end.

Section Exec.
(** the order in which a hash map of updated fields is iterated; [updated.iter()] while encoding and
    [updated.into_iter()] while applying (core/model/alt.rs:310-323) use the same order *)
Variable order : fieldmap -> fieldmap.
(** [rcrypt::hash] *)
Variable hash : bytes -> N -> bytes.

(** core/model/alt.rs:92-176 [AlterPlan::fdeltas]: [no_lock] and the action *)
Definition fdeltas (m : mmodel) (k : alter_kind) : option (qerr + (bool * alter_action)) :=
  let pk := lo_pk (md_lay m) in
  let fs := lo_fields (md_lay m) in
  match k with
  | AkRemove ks =>
      if negb (no_dups ks) then Some (inl ErrAlter) else
      match rem_check pk fs ks with
      | Some e => Some (inl e)
      | None => Some (inr (true, match ks with [] => AaIgnore | _ => AaRemove ks end))
      end
  | AkAdd l =>
      match add_plan pk fs l [] with
      | None => None
      | Some (inl e) => Some (inl e)
      | Some (inr add) => Some (inr (true, match add with [] => AaIgnore | _ => AaAdd add end))
      end
  | AkUpdate l =>
      match upd_plan pk fs l true false [] with
      | None => None
      | Some (inl e) => Some (inl e)
      | Some (inr (nl, d, new)) => Some (inr (nl, if d then AaUpdate (order new) else AaIgnore))
      end
  end.

(** core/model/alt.rs:249-327 inside core/mod.rs:126-142 [with_model_space_mut_for_ddl], which
    unwraps the space *)
Definition exec_alter_model (en : env) (w : world) (id : ent) (k : alter_kind) : world * outcome :=
  match aget ent_eqb id (n_models (w_ns w)) with
  | None => (w, OErr ErrNotFound)
  | Some m =>
      match aget bseq (fst id) (n_spaces (w_ns w)) with
      | None => (w, OPanic)
      | Some s =>
          match fdeltas m k with
          | None => (w, OPanic)
          | Some (inl e) => (w, OErr e)
          | Some (inr (nl, a)) =>
              if negb nl then (w, OErr ErrNeedLock) else
              let mid := mk_mid (mk_sid (sp_uuid s) (fst id)) (snd id) (md_ver m) (lo_uuid (md_lay m)) in
              let fin ev m' :=
                let '(w1, ok) := driver_commit (e_commit en) ev w in
                if ok then (with_ns w1 (set_models (aput ent_eqb id m' (n_models (w_ns w1))) (w_ns w1)), OEmpty)
                else (w1, OErr ErrServer) in
              match a with
              | AaIgnore => (w, OEmpty)
              | AaAdd fs => fin (EvAlterModelAdd mid fs) (live_add fs m)
              | AaRemove ks => fin (EvAlterModelRemove mid ks) (live_rem ks m)
              | AaUpdate fs => fin (EvAlterModelUpdate mid fs) (live_upd fs m)
              end
          end
      end
  end.

(** core/dcl.rs:85-97 [get_user_data]: the options must be exactly a password string *)
Definition user_password (opts : dict) : option bytes :=
  match dget (bstr "password"%string) opts with
  | Some (DData (CStr p)) =>
      match adel bseq (bstr "password"%string) opts with [] => Some p | _ => None end
  | _ => None
  end.

(** core/system_db.rs:131-150 with core/dcl.rs:76-83 *)
Definition exec_create_user (en : env) (w : world) (name : bytes) (opts : dict) : world * outcome :=
  match user_password opts with
  | None => (w, OErr ErrProps)
  | Some p =>
      match aget bseq name (n_users (w_ns w)) with
      | Some _ => (w, OErr ErrAuth)
      | None =>
          let h := hash p (e_salt en) in
          let '(w1, ok) := driver_commit (e_commit en) (EvCreateUser name h) w in
          if ok then (with_ns w1 (set_users (aput bseq name h (n_users (w_ns w1))) (w_ns w1)), OEmpty)
          else (w1, OErr ErrServer)
      end
  end.

(** core/system_db.rs:151-170 *)
Definition exec_alter_user (en : env) (w : world) (name : bytes) (p : bytes) : world * outcome :=
  match aget bseq name (n_users (w_ns w)) with
  | None => (w, OErr ErrAuth)
  | Some _ =>
      let h := hash p (e_salt en) in
      let '(w1, ok) := driver_commit (e_commit en) (EvAlterUser name h) w in
      if ok then (with_ns w1 (set_users (aput bseq name h (n_users (w_ns w1))) (w_ns w1)), OEmpty)
      else (w1, OErr ErrServer)
  end.

(** core/system_db.rs:171-182 *)
Definition exec_drop_user (en : env) (w : world) (name : bytes) : world * outcome :=
  match aget bseq name (n_users (w_ns w)) with
  | None => (w, OErr ErrAuth)
  | Some _ =>
      let '(w1, ok) := driver_commit (e_commit en) (EvDropUser name) w in
      if ok then (with_ns w1 (set_users (adel bseq name (n_users (w_ns w1))) (w_ns w1)), OEmpty)
      else (w1, OErr ErrServer)
  end.

(** [ClientLocalState], net/protocol/mod.rs:97-121: user name, root flag (the default space is in
    UseModel.v) *)
Record session := mk_session { se_user : bytes; se_root : bool }.

(** core/exec.rs:104-114, 180-187 and core/dcl.rs:37-74, 99-113: permission checks and dispatch of the
    blocking statements. ALTER USER from root is refused (63-66). The status report reads the health
    counter, which is not part of this model: it is answered from the driver flag. *)
Definition exec_stmt (se : session) (en : env) (w : world) (s : stmt) : world * outcome :=
  match s with
  | SReportStatus => (w, if w_iffy w then OErr ErrServer else OEmpty)
  | _ =>
      if negb (se_root se) then (w, OErr ErrPermission) else
      match s with
      | SCreateSpace name props nx => exec_create_space en w name props nx
      | SAlterSpace name props => exec_alter_space en w name props
      | SDropSpace name force ex => exec_drop_space en w name force ex
      | SCreateModel id fs props nx => exec_create_model en w id fs props nx
      | SAlterModel id k => exec_alter_model en w id k
      | SDropModel id force ex => exec_drop_model en w id force ex
      | SCreateUser name opts => exec_create_user en w name opts
      | SAlterUser name opts =>
          if se_root se then (w, OErr ErrAuth) else
          match user_password opts with
          | None => (w, OErr ErrProps)
          | Some p => exec_alter_user en w name p
          end
      | SDropUser name =>
          if bseq (se_user se) name then (w, OErr ErrAuth) else exec_drop_user en w name
      | SReportStatus => (w, OEmpty)
      end
  end.

(** ** Login *)

(** [rcrypt::verify] *)
Variable verify : bytes -> bytes -> bool.

(** [VerifyUser], core/system_db.rs:58-64 *)
Inductive login_result := LNotFound | LIncorrect | LOkay | LRoot.

(** core/system_db.rs:72 *)
Definition ROOT : bytes := bstr "root"%string.

(** core/system_db.rs:82-103 [verify_user] *)
Definition verify_user (n : ns) (user pass : bytes) : login_result :=
  match aget bseq user (n_users n) with
  | None => LNotFound
  | Some h =>
      match pass with
      | [] => LIncorrect
      | _ => if verify pass h then (if bseq user ROOT then LRoot else LOkay) else LIncorrect
      end
  end.

(** net/protocol/mod.rs, end of the handshake: the session of an accepted login *)
Definition login (n : ns) (user pass : bytes) : option session :=
  match verify_user n user pass with
  | LOkay => Some (mk_session user false)
  | LRoot => Some (mk_session user true)
  | _ => None
  end.

(** ** Start-up *)

(** storage/v2/mod.rs:98-118 [initialize_new] *)
Definition boot_new (key : bytes) (salt : N) : world :=
  let h := hash key salt in
  mk_world (set_users [(ROOT, h)] ns_empty) [EvCreateUser ROOT h] false.

(** storage/v2/mod.rs:120-160 [restore]: replay, then bring the root password in line with the
    configuration. [None]: the server does not start. *)
Definition boot (key : bytes) (salt : N) (log : list gns_event) : option world :=
  match replay ns_empty log with
  | None => None
  | Some n =>
      match verify_user n ROOT key with
      | LIncorrect =>
          let h := hash key salt in
          let users := match aget bseq ROOT (n_users n) with
                       | Some _ => aput bseq ROOT h (n_users n) | None => n_users n end in
          Some (mk_world (set_users users n) (log ++ [EvAlterUser ROOT h]) false)
      | _ => Some (mk_world n log false)
      end
  end.

(** ** Histories: an operation is a login, a statement on an open session, a disconnection, a repair of
    the log driver (fractal/mgr.rs:324-345 clears the flag), or a restart *)
Inductive op :=
| OpLogin (user pass : bytes)
| OpStmt (i : nat) (en : env) (s : stmt)
| OpRepair
| OpRestart (key : bytes) (salt : N).

(** server state: world and open sessions (closed sessions may stay in the list: they are simply not
    used any more) *)
Record server := mk_server { sv_w : world; sv_sess : list session }.

(** what an operation answers: a login (net/protocol/mod.rs) or a statement *)
Inductive op_out := OutLogin (ok : bool) | OutStmt (o : outcome) | OutNone.

(** one operation; [None]: the server is down (restart failed) *)
Definition step (sv : server) (o : op) : option (server * op_out) :=
  match o with
  | OpLogin u p =>
      match login (w_ns (sv_w sv)) u p with
      | Some s => Some (mk_server (sv_w sv) (sv_sess sv ++ [s]), OutLogin true)
      | None => Some (sv, OutLogin false)
      end
  | OpStmt i en s =>
      match nth_error (sv_sess sv) i with
      | None => Some (sv, OutNone)
      | Some se =>
          let '(w, o) := exec_stmt se en (sv_w sv) s in
          Some (mk_server w (sv_sess sv), OutStmt o)
      end
  | OpRepair => Some (mk_server (mk_world (w_ns (sv_w sv)) (w_log (sv_w sv)) false) (sv_sess sv), OutNone)
  | OpRestart key salt =>
      match boot key salt (w_log (sv_w sv)) with
      | None => None
      | Some w => Some (mk_server w [], OutNone)
      end
  end.

(** a whole history *)
Fixpoint run (sv : server) (l : list op) : option server :=
  match l with
  | [] => Some sv
  | o :: l' => match step sv o with Some (sv', _) => run sv' l' | None => None end
  end.

(** a new installation *)
Definition start (key : bytes) (salt : N) : server := mk_server (boot_new key salt) [].

End Exec.
