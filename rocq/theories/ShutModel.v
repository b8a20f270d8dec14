(** The tasks of the server and its shutdown: the main task (server/src/engine/mod.rs:116-200, server/src/main.rs:81-128), the connection handlers
    (engine/net/mod.rs:96-150, 187-293), the two background executors (engine/fractal/mgr.rs:223-560), and what they do to the pending changes of the
    models (engine/core/model/delta.rs:42-50, 95-149). One step of the relation is one access to what the tasks share; any interleaving may happen
    (tokio's multi-threaded runtime, main.rs:88-91). *)
From Coq Require Import List NArith Bool.
Import ListNotations.

(** ** State *)

(** A model: the queue of changes not yet written ([data_deltas]), the counter ([data_deltas_size], delta.rs:42-50), what the data file holds, and
    whether the driver is marked as failed (fractal/drivers.rs:86-130). A change is only a number here; which bytes it becomes is
    BatchModel.v's and BatchLog.v's matter. *)
Record mdl := mk_mdl { pend : list N; cnt : nat; disk : list N; iffy : bool }.

(** Where a connection handler is (net/mod.rs:122-150, protocol/mod.rs:143-229, core/mod.rs:174-199).
    [HIdle]: waiting for bytes. [HRun]: a statement that changes a row of model [m] is being executed, nothing is changed yet.
    [HPush]: the row and the queue are changed, the counter is not (delta.rs:95-98). [HFull]: the counter is changed, its new value was
    [hint]; the check of fractal/mod.rs:150-175 comes next. [HAnswer]: the answer is being written. [HDdl]: waiting for the thread
    that runs an administrative statement (core/exec.rs:175-187). [HGone]: ended. [HPanic]: the task has panicked. *)
Inductive hst := HIdle | HRun (m : nat) (c : N) | HPush (m : nat) (c : N) | HFull (m : nat) (c : N) (hint : nat) | HAnswer (c : N) | HDdl | HGone | HPanic.

(** fractal/mgr.rs:114-121. The number of attempts left ([threshold]) only decides whether the executor sleeps before the task (mgr.rs:80-84), which
    is some steps of others here. [CheckGNSDriver] behaves as [TRecover] does and is left out. *)
Inductive task := TWrite (m n : nat) | TRecover (m : nat).

(** fractal/mgr.rs:265-300: [HpRun t drain]: [t] is being executed, [drain] inside the arm of the signal *)
Inductive hpst := HpWait | HpRun (t : task) (drain : bool) | HpDrain | HpExit.

(** fractal/mgr.rs:420-514: [LpScan rest fin]: the models of [rest] are still to be looked at; [LpWrite m n rest fin]: the counter of [m] was taken
    as [n]; [fin]: inside the arm of the signal; [LpDead]: the task has panicked *)
Inductive lpst := LpWait | LpScan (rest : list nat) (fin : bool) | LpWrite (m n : nat) (rest : list nat) (fin : bool) | LpExit | LpDead.

(** engine/mod.rs:116-200: serving; dropping the senders of the signal; waiting for the handlers; waiting for the executors; files closed *)
Inductive mainst := MListen | MDrop | MWait | MJoin | MClosed.

(** [senders]: senders of the broadcast channel that are left (the one of engine/mod.rs:124 and one per listener, net/mod.rs:152-186); receivers are woken
    when there is none. [ddl]: handlers' numbers of the threads running an administrative statement. [uaf]: such a thread has used the
    memory of a handler that is gone. [acked]: the changes whose success was answered. [done]: all changes made so far, with their
    models. [lost]: for each model the counts that vanished in a panic (the last three only record). *)
Record cfg := mk_cfg { hs : list hst; md : nat -> mdl; que : list task; hpx : hpst; lpx : lpst; mainx : mainst; senders : nat; ddl : list nat;
  uaf : bool; acked : list N; done : list (nat * N); lost : nat -> nat; next : N }.

(** helpers of the model: replacing one element; [over]: the task has ended, net/mod.rs:144-146 or by a panic *)
Definition set_h (l : list hst) (i : nat) (h : hst) : list hst := firstn i l ++ h :: skipn (S i) l.
(** helper of the model, without a counterpart in the code: one element replaced *)
Definition upd {A} (f : nat -> A) (m : nat) (x : A) : nat -> A := fun k => if Nat.eqb k m then x else f k.
(** net/mod.rs:144-146 *)
Definition over (h : hst) : bool := match h with HGone | HPanic => true | _ => false end.

(** fractal/mod.rs:74-92, engine/mod.rs:123-127: a server with [listeners] listeners that has just started *)
Definition cfg0 (listeners : nat) : cfg :=
  mk_cfg [] (fun _ => mk_mdl [] 0 [] false) [] HpWait LpWait MListen (S listeners) [] false [] [] (fun _ => 0) 0%N.

(** storage/v2/impls/mdl_journal.rs:213-247: [n] changes go from the queue to the file. (A change that a newer one of the same row makes
    superfluous is only dequeued; BatchModel.v.) *)
Definition flush (d : mdl) (n : nat) : mdl := mk_mdl (skipn n (pend d)) (cnt d) (disk d ++ firstn n (pend d)) (iffy d).

(** ** Steps *)

(** the choices: who goes next, and whether the disk obeys *)
Inductive lab :=
| LConn | LRecv (i m : nat) | LExec (i : nat) | LCount (i : nat) | LCheck (i : nat) | LAnswer (i : nat)
| LDdl (i : nat) | LUse (i : nat) | LDdlEnd (i : nat) | LQuit (i : nat) | LLeave (i : nat)
| LTerm | LDrop | LFin | LJoin
| LHpTake | LHpSig | LHpRun (ok : bool) | LHpEnd
| LTimer | LLpSig | LTake | LLpWrite (ok : bool) | LScanEnd.

Section Steps.
  (** fractal/mgr.rs:135-143: [max] changes pending in one model ask for a batch at once; [nm]: number of models *)
  Variable max nm : nat.

  (** updates of one field; [hp_alive]: the receiver of mgr.rs:268 still exists, so that [send] succeeds; [signalled]: no sender of engine/mod.rs:124 is left *)
  Definition with_h (c : cfg) (i : nat) (h : hst) : cfg :=
    mk_cfg (set_h (hs c) i h) (md c) (que c) (hpx c) (lpx c) (mainx c) (senders c) (ddl c) (uaf c) (acked c) (done c) (lost c) (next c).
  (** helper of the model, without a counterpart in the code: one field replaced *)
  Definition with_md (c : cfg) (m : nat) (d : mdl) : cfg :=
    mk_cfg (hs c) (upd (md c) m d) (que c) (hpx c) (lpx c) (mainx c) (senders c) (ddl c) (uaf c) (acked c) (done c) (lost c) (next c).
  (** helper of the model, without a counterpart in the code: one field replaced *)
  Definition with_q (c : cfg) (q : list task) (h : hpst) : cfg :=
    mk_cfg (hs c) (md c) q h (lpx c) (mainx c) (senders c) (ddl c) (uaf c) (acked c) (done c) (lost c) (next c).
  (** helper of the model, without a counterpart in the code: one field replaced *)
  Definition with_lp (c : cfg) (l : lpst) : cfg :=
    mk_cfg (hs c) (md c) (que c) (hpx c) l (mainx c) (senders c) (ddl c) (uaf c) (acked c) (done c) (lost c) (next c).
  (** helper of the model, without a counterpart in the code: one field replaced *)
  Definition with_main (c : cfg) (m : mainst) (s : nat) : cfg :=
    mk_cfg (hs c) (md c) (que c) (hpx c) (lpx c) m s (ddl c) (uaf c) (acked c) (done c) (lost c) (next c).
  (** helper of the model, without a counterpart in the code: one field replaced *)
  Definition with_lost (c : cfg) (m n : nat) : cfg :=
    mk_cfg (hs c) (md c) (que c) (hpx c) (lpx c) (mainx c) (senders c) (ddl c) (uaf c) (acked c) (done c) (upd (lost c) m (lost c m + n)) (next c).
  (** helper of the model, without a counterpart in the code: one field replaced *)
  Definition with_ddl (c : cfg) (l : list nat) (u : bool) : cfg :=
    mk_cfg (hs c) (md c) (que c) (hpx c) (lpx c) (mainx c) (senders c) l u (acked c) (done c) (lost c) (next c).
  (** mgr.rs:268, as above *)
  Definition hp_alive (c : cfg) : bool := match hpx c with HpExit => false | _ => true end.
  (** no sender is left, engine/mod.rs:124 and 174-200 *)
  Definition signalled (c : cfg) : bool := Nat.eqb (senders c) 0.
  (** helper of the model, without a counterpart in the code: one field replaced *)
  Definition setcnt (d : mdl) (n : nat) : mdl := mk_mdl (pend d) n (disk d) (iffy d).
  (** helper of the model, without a counterpart in the code: one field replaced *)
  Definition set_iffy (d : mdl) (b : bool) : mdl := mk_mdl (pend d) (cnt d) (disk d) b.

  (** mgr.rs:317-415, 521-560 for one task; [ok]: the disk obeys. A failed write leaves the queue as it was (what it really does to the queue and to the
      counter is in BatchModel.v, C26). *)
  Definition run_task (c : cfg) (t : task) (ok : bool) : cfg * list task :=
    match t with
    | TWrite m n =>
        let d := md c m in
        if iffy d then (c, [TWrite m n])
        else if Nat.eqb n 0 then (c, [])
        else if ok then (with_md c m (flush d n), [])
        else (with_md c m (set_iffy d true), [TRecover m; TWrite m n])
    | TRecover m => if ok then (with_md c m (set_iffy (md c m) false), []) else (c, [TRecover m])
    end.

  (** one step of anybody, by the definitions above *)
  Definition sstep (c : cfg) (l : lab) : option cfg :=
    match l with
    (* net/mod.rs:213-241, 262-293: a connection is accepted *)
    | LConn => match mainx c with
               | MListen => Some (mk_cfg (hs c ++ [HIdle]) (md c) (que c) (hpx c) (lpx c) (mainx c) (senders c) (ddl c) (uaf c) (acked c) (done c) (lost c) (next c))
               | _ => None
               end
    (* protocol/mod.rs:158-202: a statement has arrived. The arms of [select!] (net/mod.rs:130-147) are polled in random order: also after the signal *)
    | LRecv i m => match nth_error (hs c) i with
                   | Some HIdle => if Nat.ltb m nm then
                       Some (mk_cfg (set_h (hs c) i (HRun m (next c))) (md c) (que c) (hpx c) (lpx c) (mainx c) (senders c) (ddl c) (uaf c) (acked c) (done c) (lost c) (next c + 1)%N)
                     else None
                   | _ => None
                   end
    (* core/mod.rs:174-199; ins.rs:50-66, upd.rs:260-372, del.rs:40-70: refused if the driver has failed, else row and queue changed *)
    | LExec i => match nth_error (hs c) i with
                 | Some (HRun m x) =>
                     let d := md c m in
                     if iffy d then Some (with_h c i HIdle)
                     else Some (mk_cfg (set_h (hs c) i (HPush m x)) (upd (md c) m (mk_mdl (pend d ++ [x]) (cnt d) (disk d) (iffy d))) (que c) (hpx c) (lpx c)
                                       (mainx c) (senders c) (ddl c) (uaf c) (acked c) (done c ++ [(m, x)]) (lost c) (next c))
                 | _ => None
                 end
    (* delta.rs:97 *)
    | LCount i => match nth_error (hs c) i with
                  | Some (HPush m x) => let d := md c m in Some (with_md (with_h c i (HFull m x (S (cnt d)))) m (setcnt d (S (cnt d))))
                  | _ => None
                  end
    (* fractal/mod.rs:150-175, delta.rs:147-149, mgr.rs:173-175: [send(..).unwrap()] *)
    | LCheck i => match nth_error (hs c) i with
                  | Some (HFull m x hint) =>
                      if Nat.leb max hint then
                        let n := cnt (md c m) in
                        let c' := with_md c m (setcnt (md c m) 0) in
                        if hp_alive c then Some (with_h (with_q c' (que c ++ [TWrite m n]) (hpx c)) i (HAnswer x))
                        else Some (with_h (with_lost c' m n) i HPanic)
                      else Some (with_h c i (HAnswer x))
                  | _ => None
                  end
    (* protocol/mod.rs:203-224 *)
    | LAnswer i => match nth_error (hs c) i with
                   | Some (HAnswer x) =>
                       Some (mk_cfg (set_h (hs c) i HIdle) (md c) (que c) (hpx c) (lpx c) (mainx c) (senders c) (ddl c) (uaf c) (acked c ++ [x]) (done c) (lost c) (next c))
                   | _ => None
                   end
    (* core/exec.rs:175-187: the statement and the state of the connection are lent to a thread as if they lived for ever *)
    | LDdl i => match nth_error (hs c) i with Some HIdle => Some (with_ddl (with_h c i HDdl) (i :: ddl c) (uaf c)) | _ => None end
    (* the thread reads the statement *)
    | LUse i => if existsb (Nat.eqb i) (ddl c) then
                  Some (with_ddl c (ddl c) (uaf c || match nth_error (hs c) i with Some HDdl => false | _ => true end))
                else None
    (* exec.rs:187: the thread ends; the handler, if it is still there, goes on *)
    | LDdlEnd i => if existsb (Nat.eqb i) (ddl c) then
                     let c' := with_ddl c (filter (fun k => negb (Nat.eqb i k)) (ddl c)) (uaf c) in
                     Some (match nth_error (hs c) i with Some HDdl => with_h c' i HIdle | _ => c' end)
                   else None
    (* net/mod.rs:144-146: the signal; the other arm of [select!] is dropped wherever it waits *)
    | LQuit i => match nth_error (hs c) i with
                 | Some HIdle | Some (HAnswer _) | Some HDdl => if signalled c then Some (with_h c i HGone) else None
                 | _ => None
                 end
    (* protocol/mod.rs:166-180: the client closes the connection *)
    | LLeave i => match nth_error (hs c) i with Some HIdle => Some (with_h c i HGone) | _ => None end
    (* engine/mod.rs:174-179 *)
    | LTerm => match mainx c with MListen => Some (with_main c MDrop (senders c)) | _ => None end
    (* engine/mod.rs:180-181, 106-113; net/mod.rs:187-194: one sender is dropped *)
    | LDrop => match mainx c with
               | MDrop => match senders c with 0 => None | S s => Some (with_main c (if Nat.eqb s 0 then MWait else MDrop) s) end
               | _ => None
               end
    (* net/mod.rs:196: no handler holds its end of the channel any more *)
    | LFin => match mainx c with MWait => if forallb over (hs c) then Some (with_main c MJoin (senders c)) else None | _ => None end
    (* engine/mod.rs:183-192; main.rs:114-119: dropping the runtime waits for the threads; then the files are closed, fractal/mod.rs:272-288 *)
    | LJoin => match mainx c, hpx c, lpx c, ddl c with
               | MJoin, HpExit, LpExit, [] | MJoin, HpExit, LpDead, [] => Some (with_main c MClosed (senders c))
               | _, _, _, _ => None
               end
    (* mgr.rs:272-283, 287 *)
    | LHpTake => match que c, hpx c with
                 | t :: q, HpWait => Some (with_q c q (HpRun t false))
                 | t :: q, HpDrain => Some (with_q c q (HpRun t true))
                 | _, _ => None
                 end
    (* mgr.rs:285 *)
    | LHpSig => match hpx c with HpWait => if signalled c then Some (with_q c (que c) HpDrain) else None | _ => None end
    (* mgr.rs:294-298, 289 *)
    | LHpRun ok => match hpx c with
                   | HpRun t dr => let '(c', back) := run_task c t ok in Some (with_q c' (que c ++ back) (if dr then HpDrain else HpWait))
                   | _ => None
                   end
    (* mgr.rs:287-292 *)
    | LHpEnd => match que c, hpx c with [], HpDrain => Some (with_q c [] HpExit) | _, _ => None end
    (* mgr.rs:437-440 *)
    | LTimer => match lpx c with LpWait => Some (with_lp c (LpScan (seq 0 nm) false)) | _ => None end
    (* mgr.rs:430-436 *)
    | LLpSig => match lpx c with LpWait => if signalled c then Some (with_lp c (LpScan (seq 0 nm) true)) else None | _ => None end
    (* mgr.rs:474-478 *)
    | LTake => match lpx c with
               | LpScan (m :: rest) fin => Some (with_lp (with_md c m (setcnt (md c m) 0)) (LpWrite m (cnt (md c m)) rest fin))
               | _ => None
               end
    (* mgr.rs:479-512, 521-560: a write that fails asks for a recovery and is handed to the other executor; [send(..).unwrap()] *)
    | LLpWrite ok => match lpx c with
                     | LpWrite m n rest fin =>
                         let '(c', back) := run_task c (TWrite m n) ok in
                         match back with
                         | [] => Some (with_lp c' (LpScan rest fin))
                         | _ => if hp_alive c then Some (with_lp (with_q c' (que c ++ back) (hpx c)) (LpScan rest fin))
                                else Some (with_lp (with_lost c' m n) LpDead)
                         end
                     | _ => None
                     end
    (* mgr.rs:430-440: after the loop *)
    | LScanEnd => match lpx c with LpScan [] fin => Some (with_lp c (if fin then LpExit else LpWait)) | _ => None end
    end.

  (** an interleaving *)
  Fixpoint srun (c : cfg) (ls : list lab) : option cfg :=
    match ls with [] => Some c | l :: ls' => match sstep c l with Some c' => srun c' ls' | None => None end end.
End Steps.
