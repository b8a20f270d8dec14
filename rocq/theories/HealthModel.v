(** Storage drivers, their failures and recoveries, and the health of the server. All paths are below
    /repo/server/src/engine/. *)
From Coq Require Import List NArith Bool.
Import ListNotations.
Local Open Scope N_scope.

(** a 64-bit counter ([AtomicUsize]): [fetch_add] and [fetch_sub] wrap around *)
Definition word : N := 18446744073709551616.

(** [CriticalTask], fractal/mgr.rs:112-120. A model is given by its uuid (a task for a model whose uuid
    is not that of the model with this name does nothing, mgr.rs:354, 374, 378-385); the number of
    changes to write is left out. *)
Inductive task : Type :=
| WriteBatch (m : N)
| TryRecover (m : N)
| CheckGns.

(** [FractalModelDriver] with [util::Status], fractal/drivers.rs:84-89, fractal/util.rs:29-32: the uuid
    of the model, whether the driver is failed ("iffy"), and the number of threads that have looked at
    the status and not yet done their write (fractal/mgr.rs:528 and 542: the lock is taken after the
    check) *)
Record mdrv : Type := MkMdrv { md_id : N; md_iffy : bool; md_busy : nat }.

(** [GlobalHealth], fractal/mod.rs:94-96; [FractalGNSDriver], drivers.rs:41-45, with the number of
    statements between the check of the status (drivers.rs:63) and the lock (66); the models of the
    namespace; the queue of the high priority executor *)
Record health : Type := MkHealth {
  h_faults : N;
  h_iffy : bool;
  h_busy : nat;
  h_models : list mdrv;
  h_queue : list task
}.

(** [GlobalHealth::new], fractal/mod.rs:102-106; drivers.rs:48-53; fractal/mgr.rs 220-235 *)
Definition boot (ms : list N) : health := MkHealth 0 false 0 (map (fun m => MkMdrv m false 0) ms) [].

(** [report_fault], fractal/mod.rs:107-109 *)
Definition report_fault (f : N) : N := (f + 1) mod word.
(** [report_recovery] and [report_removal_of_faulty_source], fractal/mod.rs:110-115 *)
Definition report_recovery (f : N) : N := (f + (word - 1)) mod word.
(** [status_okay], fractal/mod.rs:99-101: the answer of SYSCTL REPORT STATUS, core/dcl.rs:49-55 *)
Definition status_okay (h : health) : bool := h_faults h =? 0.

(** helper of the model, without a counterpart in the code: the drivers by number *)
Fixpoint find (m : N) (l : list mdrv) : option mdrv :=
  match l with [] => None | d :: r => if md_id d =? m then Some d else find m r end.
(** helper of the model, without a counterpart in the code: the drivers by number *)
Definition upd (m : N) (f : mdrv -> mdrv) (l : list mdrv) : list mdrv :=
  map (fun d => if md_id d =? m then f d else d) l.
(** helper of the model, without a counterpart in the code: the drivers by number *)
Definition drop (m : N) (l : list mdrv) : list mdrv := filter (fun d => negb (md_id d =? m)) l.

(** What happens on a server. *)
Inductive event : Type :=
| StmtCheck (* a schema statement or one about users looks at the status, drivers.rs:63 *)
| StmtCommit (ok : bool) (* it appends its event to the journal, which succeeds or fails, 66-76 *)
| BatchCheck (m : N) (* the periodic executor looks at the status of a model, mgr.rs:528 *)
| BatchWrite (m : N) (ok : bool) (* it, or the one below, writes a batch, mgr.rs:541-558 *)
| RunTask (ok : bool) (* the high priority executor takes the next task; heartbeats succeed or fail *)
| CreateModel (m : N) (* core/model/mod.rs:285-347, after its event was committed *)
| DropModel (m : N) (* core/model/mod.rs:394-403, after its event was committed *)
| DropSpace (ms : list N). (* DROP SPACE ALLOW NOT EMPTY after its commit, core/space.rs:265-281 *)

(** one model of a dropped space, core/space.rs:269-281. The models are locked exclusively: no batch is being
    written (mgr.rs:375 and 474 hold them shared). *)
Definition drop_faulty (m : N) (h : health) : health :=
  match find m (h_models h) with
  | Some d =>
      MkHealth (if md_iffy d then report_recovery (h_faults h) else h_faults h) (h_iffy h) (h_busy h)
        (drop m (h_models h)) (h_queue h)
  | None => h
  end.

(** no batch of these models is being written, fractal/mgr.rs:375 *)
Definition idle (l : list mdrv) : bool := forallb (fun d => Nat.eqb (md_busy d) 0) l.

(** one event. Simplified: setting a status, counting and posting the task are one step (they happen
    under the lock of the driver, but SYSCTL REPORT STATUS takes no lock). Events that cannot happen in
    a state leave it as it is. *)
Definition step (h : health) (e : event) : health :=
  match e with
  | StmtCheck => (* drivers.rs:63-65 *)
      if h_iffy h then h else MkHealth (h_faults h) (h_iffy h) (S (h_busy h)) (h_models h) (h_queue h)
  | StmtCommit ok => (* drivers.rs:66-78 *)
      match h_busy h with
      | O => h
      | S n =>
          if ok then MkHealth (h_faults h) (h_iffy h) n (h_models h) (h_queue h)
          else MkHealth (report_fault (h_faults h)) true n (h_models h) (h_queue h ++ [CheckGns])
      end
  | BatchCheck m => (* mgr.rs:473-512, 528-536 *)
      match find m (h_models h) with
      | Some d =>
          if md_iffy d
          then MkHealth (h_faults h) (h_iffy h) (h_busy h) (h_models h) (h_queue h ++ [WriteBatch m])
          else MkHealth (h_faults h) (h_iffy h) (h_busy h)
                 (upd m (fun d => MkMdrv (md_id d) (md_iffy d) (S (md_busy d))) (h_models h)) (h_queue h)
      | None => h
      end
  | BatchWrite m ok => (* mgr.rs:541-558, 497-509, 393-406: no report of the fault *)
      match find m (h_models h) with
      | Some (MkMdrv _ _ (S _)) =>
          if ok
          then MkHealth (h_faults h) (h_iffy h) (h_busy h)
                 (upd m (fun d => MkMdrv (md_id d) (md_iffy d) (pred (md_busy d))) (h_models h)) (h_queue h)
          else MkHealth (h_faults h) (h_iffy h) (h_busy h)
                 (upd m (fun d => MkMdrv (md_id d) true (pred (md_busy d))) (h_models h))
                 (h_queue h ++ [TryRecover m; WriteBatch m])
      | _ => h
      end
  | RunTask ok =>
      match h_queue h with
      | [] => h
      | CheckGns :: q => (* mgr.rs:324-345 *)
          if ok then MkHealth (report_recovery (h_faults h)) false (h_busy h) (h_models h) q
          else MkHealth (h_faults h) (h_iffy h) (h_busy h) (h_models h) (q ++ [CheckGns])
      | TryRecover m :: q => (* mgr.rs:346-373 *)
          match find m (h_models h) with
          | Some _ =>
              if ok
              then MkHealth (report_recovery (h_faults h)) (h_iffy h) (h_busy h)
                     (upd m (fun d => MkMdrv (md_id d) false (md_busy d)) (h_models h)) q
              else MkHealth (h_faults h) (h_iffy h) (h_busy h) (h_models h) (q ++ [TryRecover m])
          | None => MkHealth (h_faults h) (h_iffy h) (h_busy h) (h_models h) q
          end
      | WriteBatch m :: q => (* mgr.rs:374-408, 528-536; the write itself is [BatchWrite] *)
          match find m (h_models h) with
          | Some d =>
              if md_iffy d
              then MkHealth (h_faults h) (h_iffy h) (h_busy h) (h_models h) (q ++ [WriteBatch m])
              else MkHealth (h_faults h) (h_iffy h) (h_busy h)
                     (upd m (fun d => MkMdrv (md_id d) (md_iffy d) (S (md_busy d))) (h_models h)) q
          | None => MkHealth (h_faults h) (h_iffy h) (h_busy h) (h_models h) q
          end
      end
  | CreateModel m => (* uuids are new, core/model/mod.rs 236-250 *)
      match find m (h_models h) with
      | Some _ => h
      | None => MkHealth (h_faults h) (h_iffy h) (h_busy h) (h_models h ++ [MkMdrv m false 0]) (h_queue h)
      end
  | DropModel m => (* core/model/mod.rs:394-403: the health is not told *)
      if idle (h_models h) then MkHealth (h_faults h) (h_iffy h) (h_busy h) (drop m (h_models h)) (h_queue h) else h
  | DropSpace ms => if idle (h_models h) then fold_left (fun a m => drop_faulty m a) ms h else h
  end.

(** events one after the other *)
Definition run (h : health) (es : list event) : health := fold_left step es h.
