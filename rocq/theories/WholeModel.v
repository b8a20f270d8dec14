(** The whole server: the namespace with its log and sessions (GnsModel.v), the rows of every model
    (RowModel.v), the data files by directory, the two queues of the task manager and the flushes under
    way (BatchModel.v), and the restart: core/mod.rs, core/{space,model/mod,model/alt}.rs,
    fractal/{mod,mgr,drivers}.rs, storage/v2/mod.rs. All paths are below /repo/server/src/engine/.

    Simplifications, as in the models put together here: a statement and each step of a flush is atomic;
    a restart follows a clean shutdown; a directory is named by the names and uuids in its path (C62: the
    paths of different models differ and none is inside another). *)
From Coq Require Import Strings.String List NArith Bool Arith.
From Verif Require Import Bytes AMap DataModel CodecModel GnsCodecModel GnsModel RowModel BatchModel UpgradeModel.
Import ListNotations.
Local Open Scope N_scope.

(** the data file of a model: the batches in it; [df_torn], [df_bad] as [b_torn], [b_bad] of BatchModel.v *)
Record dfile := mk_df { df_bs : list batch; df_torn : bool; df_bad : bool }.

(** [Model], core/model/mod.rs:58-61 with fractal/drivers.rs:81-84: the data, the flush that holds the
    lock of the driver, and the file the driver has open *)
Record node := mk_node { nd_m : mst; nd_fl : option flight; nd_file : fid }.

(** [CriticalTask::WriteBatch], fractal/mgr.rs:114-121, with [ModelUniqueID] (fractal/mod.rs:319-325): name and uuid of the model, number of changes *)
Record wtask := mk_wt { wt_id : ent; wt_uuid : N; wt_n : N }.

(** [GenericTask::DeleteDirAll] with [delete_model_dir] and [delete_space_dir], fractal/mgr.rs:86-111 *)
Inductive dtask := DelModel (f : fid) | DelSpace (k : bytes) (u : N).

(** the server. [g_nodes]: [idx_mdl] (core/mod.rs:87-91) as far as rows and drivers go; the layout of a
    model is both here and in the namespace of [g_sv] (they agree, WholeProps.v). *)
Record gst := mk_gst {
  g_sv : server; g_nodes : list (ent * node); g_files : list (fid * dfile); g_tasks : list wtask; g_dels : list dtask
}.

(** what happens to the server *)
Inductive gop :=
| GLogin (user pass : bytes)            (* a client logs in *)
| GDdl (i : nat) (en : env) (s : stmt)  (* a statement that changes the namespace, on session i *)
| GDml (i : nat) (id : ent) (q : rstmt) (* INSERT, UPDATE, DELETE, SELECT, SELECT ALL, on session i *)
| GTake (id : ent)                      (* the changes of a model are counted into a WriteBatch task *)
| GBegin (i : nat)                      (* an executor starts the i-th task *)
| GStep (id : ent) (w : wout)           (* the flush of a model takes one change off the queue *)
| GEnd (id : ent) (w : wout)            (* ... and writes the end of the batch *)
| GRecover (id : ent) (u : N)           (* TryModelAutorecoverLWT *)
| GDelete (i : nat) (ok : bool)         (* the i-th task to delete a directory *)
| GRepair                               (* CheckGNSDriver *)
| GRestart (key : bytes) (salt : N).    (* clean shutdown and start *)

(** what is seen of it. [GoOff]: it cannot happen now *)
Inductive gout := GoSys (o : op_out) | GoDdl (o : outcome) | GoStmt (r : rout) | GoNoModel | GoFlush (r : bout) | GoGone | GoDone | GoOff.

(** the uuid of a model, core/model/mod.rs:83 *)
Definition nd_uuid (nd : node) : N := lo_uuid (m_lay (nd_m nd)).

(** ** One model inside the server *)

(** the file of a node; a file that has been deleted under an open handle takes writes that nobody sees *)
Definition file_at (f : fid) (g : gst) : dfile :=
  match aget fid_eqb f (g_files g) with Some d => d | None => mk_df [] false false end.
(** the machine of BatchModel.v with the given tasks *)
Definition bare (g : gst) (nd : node) (ts : list N) : bst :=
  let f := file_at (nd_file nd) g in mk_bst (nd_m nd) (df_bs f) ts (nd_fl nd) (df_torn f) (df_bad f).
(** ... put back, with its tasks at the end of the queue. A file that is no longer there does not come
    back. *)
Definition put_back (id : ent) (nd : node) (s : bst) (g : gst) : gst :=
  mk_gst (g_sv g) (aput ent_eqb id (mk_node (b_m s) (b_fl s) (nd_file nd)) (g_nodes g))
    (match aget fid_eqb (nd_file nd) (g_files g) with
     | Some _ => aput fid_eqb (nd_file nd) (mk_df (b_file s) (b_torn s) (b_bad s)) (g_files g)
     | None => g_files g
     end)
    (g_tasks g ++ map (mk_wt id (nd_uuid nd)) (b_tasks s)) (g_dels g).

(** a flush holds [idx_mdl] for reading (fractal/mgr.rs:377, 474) *)
Definition flushing (g : gst) : bool :=
  existsb (fun kn => match nd_fl (snd kn) with Some _ => true | None => false end) (g_nodes g).
(** the statements that need it for writing: core/mod.rs:100-109 (forced DROP SPACE), 135 (ALTER MODEL);
    core/model/mod.rs:334 (CREATE MODEL, here from its beginning on) and 367 (DROP MODEL) *)
Definition wants_models (s : stmt) : bool :=
  match s with SDropSpace _ f _ => f | SCreateModel _ _ _ _ | SAlterModel _ _ | SDropModel _ _ _ => true | _ => false end.

(** the number of rows DROP MODEL sees, core/model/mod.rs:372 *)
Definition rows_at (id : ent) (g : gst) : N :=
  match aget ent_eqb id (g_nodes g) with Some nd => N.of_nat (length (m_idx (nd_m nd))) | None => 0 end.

(** where CREATE MODEL puts the file: fractal/mod.rs:212-228 *)
Definition new_fid (id : ent) (u : N) (n : ns) : fid :=
  ((fst id, match aget bseq (fst id) (n_spaces n) with Some s => sp_uuid s | None => 0 end), (snd id, u)).

(** what the statement finds: the rows counted, and [create_dir] refusing a directory that exists *)
Definition seen (g : gst) (en : env) (s : stmt) : env :=
  match s with
  | SCreateModel id _ _ _ =>
      let free := match aget fid_eqb (new_fid id (e_uuid en) (w_ns (sv_w (g_sv g)))) (g_files g) with Some _ => false | None => true end in
      mk_env (e_uuid en) (e_init en && free) (e_commit en) (e_rows en) (e_salt en)
  | SDropModel id _ _ => mk_env (e_uuid en) (e_init en) (e_commit en) (rows_at id g) (e_salt en)
  | _ => en
  end.

(** was something made or dropped? *)
Definition did (o : outcome) : bool := match o with OEmpty | OBool true => true | _ => false end.

(** the models that are still in the index *)
Definition still (n : ns) (l : list (ent * node)) : list (ent * node) :=
  filter (fun kn => match aget ent_eqb (fst kn) (n_models n) with Some _ => true | None => false end) l.

Section Step.
Variable farith : aop -> N -> N -> N.
Variable order : fieldmap -> fieldmap.
Variable hash : bytes -> N -> bytes.
Variable verify : bytes -> bytes -> bool.

(** the effect of a statement on rows, files and tasks; [sv]: the namespace after it, [o]: its answer.
    CREATE MODEL: core/model/mod.rs:307-342, fractal/mod.rs:212-228. The file is made before the log is
    written; if that fails, its deletion is requested, but not if the log was known to be broken
    (fractal/drivers.rs:63-65). DROP MODEL: core/model/mod.rs:386-403. DROP SPACE: core/space.rs:262-288,
    309-317. ALTER MODEL: core/model/alt.rs:249-327. *)
Definition effect (g : gst) (en : env) (s : stmt) (sv : server) (o : outcome) : gst :=
  let n := w_ns (sv_w (g_sv g)) in
  let n' := w_ns (sv_w sv) in
  match s with
  | SCreateModel id _ _ _ =>
      let f := new_fid id (e_uuid en) n in
      if did o then
        match aget ent_eqb id (n_models n') with
        | Some mm => mk_gst sv (aput ent_eqb id (mk_node (mst_new (md_lay mm)) None f) (g_nodes g))
                       (aput fid_eqb f (mk_df [] false false) (g_files g)) (g_tasks g) (g_dels g)
        | None => mk_gst sv (g_nodes g) (g_files g) (g_tasks g) (g_dels g)
        end
      else
        match o with
        | OErr ErrServer =>
            if e_init (seen g en s) then
              mk_gst sv (g_nodes g) (aput fid_eqb f (mk_df [] false false) (g_files g)) (g_tasks g)
                (if w_iffy (sv_w (g_sv g)) then g_dels g else g_dels g ++ [DelModel f])
            else mk_gst sv (g_nodes g) (g_files g) (g_tasks g) (g_dels g)
        | _ => mk_gst sv (g_nodes g) (g_files g) (g_tasks g) (g_dels g)
        end
  | SDropModel id _ _ =>
      if did o then
        mk_gst sv (still n' (g_nodes g)) (g_files g) (g_tasks g)
          (match file_of n id with Some (f, _) => g_dels g ++ [DelModel f] | None => g_dels g end)
      else mk_gst sv (g_nodes g) (g_files g) (g_tasks g) (g_dels g)
  | SDropSpace k _ _ =>
      if did o then
        mk_gst sv (still n' (g_nodes g)) (g_files g) (g_tasks g)
          (match aget bseq k (n_spaces n) with Some s => g_dels g ++ [DelSpace k (sp_uuid s)] | None => g_dels g end)
      else mk_gst sv (g_nodes g) (g_files g) (g_tasks g) (g_dels g)
  | SAlterModel id k =>
      match o, aget ent_eqb id (g_nodes g) with
      | OEmpty, Some nd =>
          mk_gst sv (aput ent_eqb id (mk_node (fst (rstep farith order (nd_m nd) (RAlter k true))) (nd_fl nd) (nd_file nd)) (g_nodes g))
            (g_files g) (g_tasks g) (g_dels g)
      | _, _ => mk_gst sv (g_nodes g) (g_files g) (g_tasks g) (g_dels g)
      end
  | _ => mk_gst sv (g_nodes g) (g_files g) (g_tasks g) (g_dels g)
  end.

(** the files that a deletion removes: [remove_dir_all], fractal/mgr.rs:461-467 *)
Definition hit (d : dtask) (f : fid) : bool :=
  match d with DelModel x => fid_eqb x f | DelSpace k u => bseq k (fst (fst f)) && (u =? snd (fst f)) end.

(** the loop of storage/v2/mod.rs:123-139 over the models of the replayed namespace: each file is opened
    (a missing one is an error, so is one whose numbering has a gap, C10) and its batches are applied to
    the model with the schema deltas that the replay published *)
Fixpoint load_nodes (n : ns) (d : sds) (files : list (fid * dfile)) (l : list (ent * mmodel)) : option (list (ent * node)) :=
  match l with
  | [] => Some []
  | (id, _) :: l' =>
      match file_of n id with
      | None => None
      | Some (f, lay) =>
          match aget fid_eqb f files with
          | None => None
          | Some df =>
              if df_bad df then None else
              match apply_batches (base_of lay (sds_get d id)) (df_bs df) with
              | None => None
              | Some m => match load_nodes n d files l' with Some r => Some ((id, mk_node m None f) :: r) | None => None end
              end
          end
      end
  end.

(** statements that are no data statements do not come this way *)
Definition is_dml (q : rstmt) : bool := match q with RAlter _ _ => false | _ => true end.

(** one event; [None]: the server does not come up again *)
Definition gstep (g : gst) (o : gop) : option (gst * gout) :=
  match o with
  | GLogin u p =>
      match step order hash verify (g_sv g) (OpLogin u p) with
      | Some (sv, r) => Some (mk_gst sv (g_nodes g) (g_files g) (g_tasks g) (g_dels g), GoSys r)
      | None => None
      end
  | GRepair =>
      match step order hash verify (g_sv g) OpRepair with
      | Some (sv, r) => Some (mk_gst sv (g_nodes g) (g_files g) (g_tasks g) (g_dels g), GoSys r)
      | None => None
      end
  | GDdl i en s =>
      if wants_models s && flushing g then Some (g, GoOff) else
      match step order hash verify (g_sv g) (OpStmt i (seen g en s) s) with
      | Some (sv, OutStmt o) => Some (effect g en s sv o, GoDdl o)
      | _ => Some (g, GoOff)
      end
  | GDml i id q =>
      match nth_error (sv_sess (g_sv g)) i with
      | None => Some (g, GoOff)
      | Some _ =>
          if negb (is_dml q) then Some (g, GoOff) else
          match aget ent_eqb id (g_nodes g) with
          | None => Some (g, GoNoModel) (* core/mod.rs:146-149, 183-185 *)
          | Some nd =>
              let '(m, r) := rstep farith order (nd_m nd) q in
              Some (mk_gst (g_sv g) (aput ent_eqb id (mk_node m (nd_fl nd) (nd_file nd)) (g_nodes g)) (g_files g) (g_tasks g) (g_dels g), GoStmt r)
          end
      end
  | GTake id => (* fractal/mod.rs:150-174; fractal/mgr.rs:475-478 *)
      match aget ent_eqb id (g_nodes g) with
      | None => Some (g, GoNoModel)
      | Some nd => let '(s, r) := bstep farith order (bare g nd []) BTake in Some (put_back id nd s g, GoFlush r)
      end
  | GBegin i => (* fractal/mgr.rs:375-414 *)
      match nth_error (g_tasks g) i with
      | None => Some (g, GoOff)
      | Some t =>
          let g0 := mk_gst (g_sv g) (g_nodes g) (g_files g) (del_nth i (g_tasks g)) (g_dels g) in
          match aget ent_eqb (wt_id t) (g_nodes g) with
          | None => Some (g0, GoGone)
          | Some nd =>
              if negb (nd_uuid nd =? wt_uuid t) then Some (g0, GoGone) else
              match nd_fl nd with
              | Some _ => Some (g, GoOff)
              | None => let '(s, r) := bstep farith order (bare g nd [wt_n t]) (BBegin 0) in Some (put_back (wt_id t) nd s g0, GoFlush r)
              end
          end
      end
  | GStep id w =>
      match aget ent_eqb id (g_nodes g) with
      | None => Some (g, GoOff)
      | Some nd => let '(s, r) := bstep farith order (bare g nd []) (BStep w) in Some (put_back id nd s g, GoFlush r)
      end
  | GEnd id w =>
      match aget ent_eqb id (g_nodes g) with
      | None => Some (g, GoOff)
      | Some nd => let '(s, r) := bstep farith order (bare g nd []) (BEnd w) in Some (put_back id nd s g, GoFlush r)
      end
  | GRecover id u => (* fractal/mgr.rs:346-374 *)
      match aget ent_eqb id (g_nodes g) with
      | None => Some (g, GoGone)
      | Some nd =>
          if negb (nd_uuid nd =? u) then Some (g, GoGone) else
          let '(s, r) := bstep farith order (bare g nd []) BRecover in Some (put_back id nd s g, GoFlush r)
      end
  | GDelete i ok => (* fractal/mgr.rs:445-467; a failed one is put back *)
      match nth_error (g_dels g) i with
      | None => Some (g, GoOff)
      | Some d =>
          let r := del_nth i (g_dels g) in
          if ok then Some (mk_gst (g_sv g) (g_nodes g) (filter (fun kf => negb (hit d (fst kf))) (g_files g)) (g_tasks g) r, GoDone)
          else Some (mk_gst (g_sv g) (g_nodes g) (g_files g) (g_tasks g) (r ++ [d]), GoDone)
      end
  | GRestart key salt =>
      if flushing g then Some (g, GoOff) else
      match step order hash verify (g_sv g) (OpRestart key salt) with
      | None => None
      | Some (sv, _) =>
          match load_nodes (w_ns (sv_w sv)) (fold_left sds_event (w_log (sv_w (g_sv g))) []) (g_files g) (n_models (w_ns (sv_w sv))) with
          | None => None
          | Some nodes =>
              Some (mk_gst sv nodes (map (fun kf => (fst kf, mk_df (df_bs (snd kf)) false (df_bad (snd kf)))) (g_files g)) [] [], GoDone)
          end
      end
  end.

(** a new installation *)
Definition gstart (key : bytes) (salt : N) : gst := mk_gst (GnsModel.start hash key salt) [] [] [] [].

(** the histories of the server in which every event satisfies [C]; they end at undefined behaviour and
    at a panic of a flush *)
Inductive ghist (C : gst -> gop -> gout -> Prop) (key : bytes) (salt : N) : list (gop * gout) -> gst -> Prop :=
| gh_nil : ghist C key salt [] (gstart key salt)
| gh_snoc h g o g' r : ghist C key salt h g -> gstep g o = Some (g', r) -> C g o r ->
    r <> GoFlush BoUb -> r <> GoFlush BoPanic -> r <> GoStmt RoUb -> ghist C key salt (h ++ [(o, r)]) g'.
End Step.
