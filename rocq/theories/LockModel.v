(** Which locks every statement and every background task takes, and in which order. All paths are below
    /repo/server/src/engine/. *)
From Coq Require Import List Arith Bool.
Import ListNotations.

(** The locks of the engine (parking_lot).
    - [LSpaces], [LModels]: core/mod.rs:87-89; [LUsers]: core/system_db.rs:38-40;
    - [LGns]: the system journal, fractal/drivers.rs:44; [LBatch m]: the journal of a model, 86;
    - [LLatch m]: the latch of a primary index, core/index/mod.rs:79-81;
    - [LRow r]: one per row, core/index/row.rs:48; [LList i d]: one per list, data/cell.rs, here with its
      depth in the row. *)
Inductive lock : Type :=
| LSpaces | LModels | LUsers | LGns
| LBatch (m : nat) | LLatch (m : nat) | LRow (r : nat) | LList (d i : nat).
(** helper of the model, without a counterpart in the code: comparing locks *)
Definition lock_eqb (a b : lock) : bool :=
  match a, b with
  | LSpaces, LSpaces | LModels, LModels | LUsers, LUsers | LGns, LGns => true
  | LBatch m, LBatch n | LLatch m, LLatch n | LRow m, LRow n => m =? n
  | LList d m, LList e n => (d =? e) && (m =? n)
  | _, _ => false
  end.

(** how a lock is held: shared, shared with the right to upgrade (one at a time), exclusive; a mutex is
    always held exclusively *)
Inductive mode : Type := MR | MU | MW.
(** when parking_lot lets two threads hold a lock together *)
Definition compatible (a b : mode) : bool :=
  match a, b with MR, MR | MR, MU | MU, MR => true | _, _ => false end.

(** what a thread does with locks: [read], [upgradable_read], [write], [lock], upgrading, downgrading and dropping a guard (parking_lot) *)
Inductive instr : Type :=
| Acq (l : lock) (m : mode) (* waits *)
| Up (l : lock) (* MU to MW: waits for the readers *)
| Down (l : lock) (* to MR *)
| Rel (l : lock).

(** * The statements. The parameters of a statement stand for what it finds: how far it gets. *)

(** [driver_context], fractal/drivers.rs:57-79: nothing if the journal is failed ([ok] false), else the
    mutex around the commit *)
Definition gns_ctx (ok : bool) : list instr := if ok then [Acq LGns MW; Rel LGns] else [].

(** lists inside a row as they are read: [encode_cell], core/dml/sel.rs:161-170, and [encode],
    storage/common_encoding/r1/obj.rs:131-137: the lock of a list is held while its elements are read *)
Inductive ltree : Type := LT (i : nat) (ts : list ltree).
(** core/dml/sel.rs:161-170: a list and the lists in it *)
Fixpoint lread (d : nat) (t : ltree) : list instr :=
  match t with
  | LT i ts =>
      Acq (LList d i) MR ::
      (fix all (l : list ltree) : list instr := match l with [] => [] | a :: r => lread (S d) a ++ all r end) ts
      ++ [Rel (LList d i)]
  end.
(** core/dml/sel.rs:161-170: a list and the lists in it *)
Definition lreads (d : nat) (l : list ltree) : list instr := flat_map (lread d) l.

(** [resolve_schema_deltas_and_freeze_if], core/index/row.rs:142-180: upgraded if there are schema deltas to
    apply ([up]), then held shared while the cells are read *)
Record visit : Type := MkVisit { v_row : nat; v_up : bool; v_lists : list ltree }.
(** core/index/row.rs:142-180 *)
Definition row_read (v : visit) : list instr :=
  Acq (LRow (v_row v)) MU :: (if v_up v then [Up (LRow (v_row v))] else []) ++
  Down (LRow (v_row v)) :: lreads 0 (v_lists v) ++ [Rel (LRow (v_row v))].

(** the statements and background tasks that take locks; where they do: [locks] *)
Inductive stmt : Type :=
| SCreateSpace (fresh gns : bool)
| SAlterSpace (found gns : bool)
| SDropSpace (found gns : bool)
| SDropSpaceForced (found gns : bool)
| SCreateModel (fresh gns committed : bool)
| SDropModel (found empty gns : bool)
| SAlterModel (found legal gns : bool)
| SUser (found gns : bool)
| SLogin
| SUse
| SInspectGlobal (root : bool)
| SInspectModel
| SInspectSpace
| SInsert (model : nat) (found ok : bool)
| SDelete (model : nat) (found : bool)
| SUpdate (row : option nat) (lists : list nat)
| SSelect (row : option visit)
| SSelectAll (model : nat) (ok : bool) (rows : list visit)
(* background tasks *)
| TCheckGns
| TTryRecover (model : option nat)
| TWriteBatch (model : option nat) (rows : list visit)
| TSync (models : list (nat * list visit)).

(** one batch: [try_write_model_data_batch], fractal/mgr.rs:521-559, and the rows of its changes,
    storage/v2/impls/mdl_journal.rs:261-293 *)
Definition batch_locks (m : nat) (rows : list visit) : list instr :=
  Acq (LBatch m) MW :: flat_map row_read rows ++ [Rel (LBatch m)].

(** the locks each takes in order: the lines are given at the parts above and inside *)
Definition locks (s : stmt) : list instr :=
  match s with
  | SCreateSpace fresh gns => (* core/space.rs:157-189 *)
      Acq LSpaces MW :: (if fresh then gns_ctx gns else []) ++ [Rel LSpaces]
  | SAlterSpace found gns => (* core/space.rs:198-233; core/mod.rs:116-126 *)
      Acq LSpaces MW :: (if found then gns_ctx gns else []) ++ [Rel LSpaces]
  | SDropSpace found gns => (* core/space.rs:290-322 *)
      Acq LSpaces MW :: (if found then gns_ctx gns else []) ++ [Rel LSpaces]
  | SDropSpaceForced found gns => (* core/space.rs:243-288; core/mod.rs:101-108 *)
      Acq LSpaces MW :: Acq LModels MW :: (if found then gns_ctx gns else []) ++ [Rel LModels; Rel LSpaces]
  | SCreateModel fresh gns committed => (* core/model/mod.rs:295-346; the models are locked after the commit, 338 *)
      Acq LSpaces MW ::
      (if fresh then gns_ctx gns ++ (if gns && committed then [Acq LModels MW; Rel LModels] else []) else [])
      ++ [Rel LSpaces]
  | SDropModel found empty gns => (* core/model/mod.rs:354-409 *)
      Acq LSpaces MW ::
      (if found then Acq LModels MW :: (if empty then gns_ctx gns else []) ++ [Rel LModels] else [])
      ++ [Rel LSpaces]
  | SAlterModel found legal gns => (* core/mod.rs:127-142; core/model/alt.rs:254-340 *)
      Acq LModels MW ::
      (if found then Acq LSpaces MR :: (if legal then gns_ctx gns else []) ++ [Rel LSpaces] else [])
      ++ [Rel LModels]
  | SUser found gns => (* create, alter, drop: core/system_db.rs:131-185 *)
      Acq LUsers MW :: (if found then gns_ctx gns else []) ++ [Rel LUsers]
  | SLogin => [Acq LUsers MR; Rel LUsers] (* core/system_db.rs:82-104 *)
  | SUse => [Acq LSpaces MR; Rel LSpaces] (* core/mod.rs:166-168, core/exec.rs:202-240 *)
  | SInspectGlobal root => (* core/ddl_misc.rs:40-72 *)
      Acq LSpaces MR :: Rel LSpaces :: (if root then [Acq LUsers MR; Rel LUsers] else [])
  | SInspectModel => [Acq LModels MR; Rel LModels] (* core/ddl_misc.rs:73-83 *)
  | SInspectSpace => [Acq LSpaces MR; Rel LSpaces] (* core/ddl_misc.rs:84-99 *)
  | SInsert m found ok => (* core/mod.rs:174-200; core/dml/ins.rs:49-66 *)
      Acq LModels MR :: (if found && ok then [Acq (LLatch m) MR; Rel (LLatch m)] else []) ++ [Rel LModels]
  | SDelete m found => (* core/dml/del.rs:44-68 *)
      Acq LModels MR :: (if found then [Acq (LLatch m) MR; Rel (LLatch m)] else []) ++ [Rel LModels]
  | SUpdate row lists => (* core/dml/upd.rs:260-380: no latch; a list is locked for each append *)
      Acq LModels MR ::
      match row with
      | Some r => Acq (LRow r) MW :: flat_map (fun i => [Acq (LList 0 i) MW; Rel (LList 0 i)]) lists ++ [Rel (LRow r)]
      | None => []
      end ++ [Rel LModels]
  | SSelect row => (* core/dml/sel.rs:176-217; core/mod.rs:143-152 *)
      Acq LModels MR :: match row with Some v => row_read v | None => [] end ++ [Rel LModels]
  | SSelectAll m ok rows => (* core/dml/sel.rs:86-140, 219-256 *)
      Acq LModels MR ::
      (if ok then Acq (LLatch m) MW :: flat_map row_read rows ++ [Rel (LLatch m)] else []) ++ [Rel LModels]
  | TCheckGns => [Acq LGns MW; Rel LGns] (* fractal/mgr.rs:324-345 *)
  | TTryRecover m => (* fractal/mgr.rs:346-373 *)
      Acq LModels MR :: match m with Some m => [Acq (LBatch m) MW; Rel (LBatch m)] | None => [] end ++ [Rel LModels]
  | TWriteBatch m rows => (* fractal/mgr.rs:375-409 *)
      Acq LModels MR :: match m with Some m => batch_locks m rows | None => [] end ++ [Rel LModels]
  | TSync ms => (* fractal/mgr.rs:473-513 *)
      Acq LModels MR :: flat_map (fun x => batch_locks (fst x) (snd x)) ms ++ [Rel LModels]
  end.

(** * Running: each thread has a program and what it holds. The model covers only the locks; what the
    statements do in between takes finite time. *)
Record thread : Type := MkThread { th_prog : list instr; th_held : list (lock * mode) }.
(** helper of the model, without a counterpart in the code: all threads, at the start with their whole programs *)
Definition config : Type := list thread.

(** helper of the model, without a counterpart in the code: all threads, at the start with their whole programs *)
Definition start (ss : list stmt) : config := map (fun s => MkThread (locks s) []) ss.

(** helper of the model, without a counterpart in the code: what a thread holds *)
Definition remove (l : lock) (h : list (lock * mode)) : list (lock * mode) :=
  filter (fun x => negb (lock_eqb (fst x) l)) h.
(** helper of the model, without a counterpart in the code: what a thread holds *)
Definition set_mode (l : lock) (m : mode) (h : list (lock * mode)) : list (lock * mode) :=
  map (fun x => if lock_eqb (fst x) l then (l, m) else x) h.

(** a thread after its next instruction *)
Definition advance (t : thread) : thread :=
  match th_prog t with
  | [] => t
  | Acq l m :: p => MkThread p ((l, m) :: th_held t)
  | Up l :: p => MkThread p (set_mode l MW (th_held t))
  | Down l :: p => MkThread p (set_mode l MR (th_held t))
  | Rel l :: p => MkThread p (remove l (th_held t))
  end.

(** some other thread holds [l] in a way that excludes [m] *)
Definition conflict (c : config) (i : nat) (l : lock) (m : mode) : Prop :=
  exists j t m', j <> i /\ nth_error c j = Some t /\ In (l, m') (th_held t) /\ compatible m m' = false.

(** the next instruction of thread [i] can be carried out: a lock is granted when nobody holds it in
    conflict (in any order, so also past waiting writers) *)
Definition ready (c : config) (i : nat) (t : thread) : Prop :=
  match th_prog t with
  | [] => False
  | Acq l m :: _ => ~ conflict c i l m
  | Up l :: _ => ~ conflict c i l MW
  | Down _ :: _ | Rel _ :: _ => True
  end.

(** helper of the model, without a counterpart in the code: one element replaced *)
Fixpoint set_nth {A} (i : nat) (x : A) (l : list A) : list A :=
  match i, l with
  | _, [] => []
  | O, _ :: r => x :: r
  | S i, a :: r => a :: set_nth i x r
  end.

(** helper of the model, without a counterpart in the code: the scheduler, one step and any number *)
Inductive step : config -> config -> Prop :=
| Step c i t : nth_error c i = Some t -> ready c i t -> step c (set_nth i (advance t) c).

(** helper of the model, without a counterpart in the code: the scheduler, one step and any number *)
Inductive steps : config -> config -> Prop :=
| StepsNil c : steps c c
| StepsCons c c' c'' : step c c' -> steps c' c'' -> steps c c''.
