(** The low-priority executor: one task of the server that writes pending changes of all models whenever the service window has passed and deletes
    directories it was asked to delete (engine/fractal/mgr.rs:420-472; all lines are of this file unless another is named). Time is in seconds. *)
From Coq Require Import List NArith Bool.
Import ListNotations.
Local Open Scope N_scope.

(** storage/common/mod.rs:46-57: the directory of a space, and that of a model inside of it; names and uuids are numbers here (C62) *)
Inductive dir := DSpace (s : N) | DModel (s m : N).
(** equality of paths *)
Definition dir_eqb (a b : dir) : bool :=
  match a, b with
  | DSpace x, DSpace y => x =? y
  | DModel x m, DModel y n => (x =? y) && (m =? n)
  | _, _ => false
  end.
(** [a] is [b] or lies inside of it *)
Definition inside (a b : dir) : bool := dir_eqb a b || match a, b with DModel s _, DSpace t => s =? t | _, _ => false end.

(** 60-84, 87-95: the directory to delete; [fresh]: the threshold is still [TASK_THRESHOLD], that is, the task has not failed yet. ([DeleteFile] is never
    used.) *)
Record task := mk_task { fresh : bool; todo : dir }.
(** 58 *)
Definition pause : N := 30.

(** [now]: the clock. [since]: when the current round of the loop began, and with it the timer of line 437. [que]: the queue ([lpq]). [disk]: directories
    that exist. [writes]: when the models were looked at, start and end of each time, the last first. [over]: the executor has ended. *)
Record lp := mk_lp { now : N; since : N; que : list task; disk : list dir; writes : list (N * N); over : bool }.
(** the executor at its start with the directories [ds] *)
Definition lp0 (t : N) (ds : list dir) : lp := mk_lp t t [] ds [] false.

(** [LWait d]: nothing to do for [d] seconds. [LAsk x]: a statement asks for the deletion of [x] (core/space.rs:175, 266, 312, core/model/mod.rs:326,
    fractal/mod.rs:208). [LMake x]: a directory is created (core/space.rs:169, fractal/mod.rs:220). [LTask ok d]: the first task of the queue is done,
    which takes [d] seconds; [ok]: the file system lets a directory that is there be deleted. [LTimer d]: the timer of line 437 is over, the
    models are looked at, which takes [d] seconds. [LStop d]: the termination signal. *)
Inductive lab := LWait (d : N) | LAsk (x : dir) | LMake (x : dir) | LTask (ok : bool) (d : N) | LTimer (d : N) | LStop (d : N).

(** 430-472. [select!] picks any arm that is ready; time passes only while none is. The pause of 445 (80-84) and the deletion are awaited inside the
    arm, so the timer is made anew after them. Simplified: deleting is all or nothing. [remove_dir_all] of a directory that
    does not exist is an error (standard library). *)
Definition step (dur : N) (s : lp) (l : lab) : option lp :=
  if over s then None else
  match l with
  | LWait d =>
      match que s with
      | [] => if now s + d <=? since s + dur then Some (mk_lp (now s + d) (since s) [] (disk s) (writes s) false) else None
      | _ => None
      end
  | LAsk x => Some (mk_lp (now s) (since s) (que s ++ [mk_task true x]) (disk s) (writes s) false)
  | LMake x => Some (mk_lp (now s) (since s) (que s) (x :: disk s) (writes s) false)
  | LTask ok d =>
      match que s with
      | [] => None
      | t :: q =>
          let n := now s + (if fresh t then 0 else pause) + d in
          if ok && existsb (dir_eqb (todo t)) (disk s)
          then Some (mk_lp n n q (filter (fun x => negb (inside x (todo t))) (disk s)) (writes s) false)
          else Some (mk_lp n n (q ++ [mk_task false (todo t)]) (disk s) (writes s) false)
      end
  | LTimer d =>
      if since s + dur <=? now s
      then Some (mk_lp (now s + d) (now s + d) (que s) (disk s) ((now s, now s + d) :: writes s) false)
      else None
  | LStop d => Some (mk_lp (now s + d) (now s + d) (que s) (disk s) ((now s, now s + d) :: writes s) true)
  end.
(** a run *)
Fixpoint run (dur : N) (s : lp) (ls : list lab) : option lp :=
  match ls with [] => Some s | l :: r => match step dur s l with Some s' => run dur s' r | None => None end end.
