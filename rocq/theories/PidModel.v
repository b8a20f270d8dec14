(** Starting and stopping servers in one directory: the lock on the file [.sky_pid] (/repo/server/src/main.rs:81-128, util/os/flock.rs:45-88, Unix part).
    One step is one system call; any number of processes act in any order. *)
From Coq Require Import List NArith Bool.
Import ListNotations.
Local Open Scope N_scope.

(** A process: before [File::create] (flock.rs:53); the file is open (its inode), not locked yet; serving, with the lock; the data are
    closed and the name removed (main.rs:116-124), the file still open; ended. *)
Inductive proc := PNew | POpen (i : N) | PServe (i : N) | PClosing (i : N) | PEnd.
(** The directory as main.rs:86, 121 and flock.rs:53, 79 see it. [name]: the inode [.sky_pid] stands for, if there is such a file. [lock]: who has the lock of an inode. [next]: the next inode. *)
Record sys := mk_sys { ps : N -> proc; name : option N; lock : N -> option N; next : N }.
(** no process, no file: a fresh directory (/repo/server/src/main.rs:62) *)
Definition sys0 : sys := mk_sys (fun _ => PNew) None (fun _ => None) 0.

(** helper of the model, no code: a function changed at one place *)
Definition upd {A} (f : N -> A) (k : N) (x : A) : N -> A := fun y => if y =? k then x else f y.

(** what process [p] does next (main.rs:83-129); [AKill]: it is killed, or its machine loses power and starts again *)
Inductive act := AOpen (p : N) | ALock (p : N) | AClose (p : N) | AExit (p : N) | AKill (p : N).

(** one system call of main.rs:83-129 and flock.rs:52-87; [None]: not possible now. Simplified: a failed [File::create] and a failure to build the
    runtime after locking (main.rs:88-91: the lock goes, the file stays) are [AKill]; inode numbers are not used again. *)
Definition step (s : sys) (a : act) : option sys :=
  match a with
  (* flock.rs:53: an existing file is opened (and cut), otherwise one is made *)
  | AOpen p =>
      match ps s p with
      | PNew =>
          match name s with
          | Some i => Some (mk_sys (upd (ps s) p (POpen i)) (name s) (lock s) (next s))
          | None => Some (mk_sys (upd (ps s) p (POpen (next s))) (Some (next s)) (lock s) (next s + 1))
          end
      | _ => None
      end
  (* flock.rs:79-86: [LOCK_EX | LOCK_NB] on the open file, whatever the name stands for by now; a refused process ends and removes nothing
     (main.rs:94-97, 120) *)
  | ALock p =>
      match ps s p with
      | POpen i =>
          match lock s i with
          | None => Some (mk_sys (upd (ps s) p (PServe i)) (name s) (upd (lock s) i (Some p)) (next s))
          | Some _ => Some (mk_sys (upd (ps s) p PEnd) (name s) (lock s) (next s))
          end
      | _ => None
      end
  (* main.rs:108, 113-124: also after an error of the start; data closed, then the name is removed - whatever it stands for; the error when there is none is only logged *)
  | AClose p =>
      match ps s p with
      | PServe i => Some (mk_sys (upd (ps s) p (PClosing i)) None (lock s) (next s))
      | _ => None
      end
  (* main.rs:125-129: the process ends, its file is closed and the lock goes *)
  | AExit p =>
      match ps s p with
      | PClosing i => Some (mk_sys (upd (ps s) p PEnd) (name s) (upd (lock s) i None) (next s))
      | _ => None
      end
  | AKill p =>
      match ps s p with
      | POpen _ => Some (mk_sys (upd (ps s) p PEnd) (name s) (lock s) (next s))
      | PServe i | PClosing i => Some (mk_sys (upd (ps s) p PEnd) (name s) (upd (lock s) i None) (next s))
      | _ => None
      end
  end.
(** an interleaving of the calls of all processes (main.rs:81-129 in each) *)
Fixpoint run (s : sys) (l : list act) : option sys :=
  match l with [] => Some s | a :: r => match step s a with Some s' => run s' r | None => None end end.
