(** From tokens to actions: the dispatcher [core/exec.rs] and the connection state
    [net/protocol/mod.rs] ([ClientLocalState]). All paths are below /repo/server/src/engine/. *)
From Coq Require Import Strings.String List NArith Bool Arith.
From Verif Require Import Bytes DataModel CodecModel AMap TypeModel GnsModel RowModel LexModel ParseModel DdlModel.
Import ListNotations.

(** a parsed statement, with the executor it is given to, core/exec.rs:137-170, 244-262 *)
Inductive request :=
| RqDdl (s : stmt)
| RqUse (u : use_stmt)
| RqInspect (i : inspect_stmt)
| RqInsert (i : insert_stmt)
| RqSelect (s : select_stmt)
| RqSelectAll (s : select_all_stmt)
| RqUpdate (u : update_stmt)
| RqDelete (d : delete_stmt).
(** the errors of the dispatcher: [QLExpectedStatement], [QLUnknownStatement], [SysPermissionDenied]; or
    the parser's *)
Inductive derr := DxExpected | DxUnknown | DxPermission | DxParse (e : perr).
(** what the dispatcher comes to, core/exec.rs *)
Inductive dres := DReq (r : request) | DErr (e : derr) | DPanic | DUb | DFuel.

(** [_callgs], [_callgs_map], [_callgcs], core/exec.rs:66-94: parse, then execute *)
Definition of_pres {A} (f : A -> request) (p : pres A) : dres :=
  match p with
  | POk a => DReq (f a) | PErr e => DErr (DxParse e) | PPanic => DPanic | PUb => DUb | PFuel => DFuel
  end.

(** [is_blocking], ql/lex/raw.rs:465-467 *)
Definition is_blocking (k : kstmt) : bool :=
  match k with KsSysctl | KsCreate | KsAlter | KsDrop => true | _ => false end.
(** the keyword [Sysctl], ql/lex/raw.rs:337 *)
Definition is_sysctl (k : kstmt) : bool := match k with KsSysctl => true | _ => false end.

(** [run_blocking_stmt], core/exec.rs:104-187. The function index [fc] is written out as the cases it
    distinguishes. The current space is unset first (119), so that it is no argument here. *)
Definition blocking (root : bool) (k : kstmt) (r : list token) : dres :=
  if negb (root || is_sysctl k) then DErr DxPermission
  else
    match r with
    | a :: ((b :: _) as t) =>
        let last_id := is_ident b in
        let last_allow := is_misc KmAllow b in
        let last_if := is_misc KmIf b in
        match k with
        | KsSysctl => of_pres RqDdl (sysctl_of r)
        | KsCreate =>
            if is_misc KmSpace a && (last_id || last_if) then of_pres RqDdl (create_space_of t)
            else if is_misc KmModel a && (last_id || last_if) then of_pres RqDdl (create_model_of t)
            else DErr DxUnknown
        | KsAlter =>
            if is_misc KmSpace a && last_id then of_pres RqDdl (alter_space_of t)
            else if is_misc KmModel a && last_id then of_pres RqDdl (alter_model_of t)
            else DErr DxUnknown
        | KsDrop =>
            if is_misc KmSpace a && (last_id || last_allow || last_if) then of_pres RqDdl (drop_space_of t)
            else if is_misc KmModel a && (last_id || last_allow || last_if) then of_pres RqDdl (drop_model_of t)
            else DErr DxUnknown
        | _ => DErr DxUnknown
        end
    | _ => DErr DxExpected
    end.

Section Exec.
(** what the generator functions return, as in ParseModel.v *)
Variable uuid_text : nat -> bytes.
Variable uuid_bin : nat -> bytes.
Variable now_secs : nat -> N.

(** [run_nb], core/exec.rs:240-275: SELECT followed by ALL is the ninth function. *)
Definition nonblocking (cs : option bytes) (k : kstmt) (r : list token) : dres :=
  match k with
  | KsUse => of_pres RqUse (use_of r)
  | KsInspect => of_pres RqInspect (inspect_of cs r)
  | KsInsert => of_pres RqInsert (insert_of uuid_text uuid_bin now_secs cs r)
  | KsSelect =>
      match r with
      | TKw (KMisc KmAll) :: r' => of_pres RqSelectAll (select_all_of cs r')
      | _ => of_pres RqSelect (select_of cs r)
      end
  | KsUpdate => of_pres RqUpdate (update_of cs r)
  | KsDelete => of_pres RqDelete (delete_of cs r)
  | _ => DErr DxUnknown
  end.

(** [dispatch_to_executor], core/exec.rs:44-64, and [try_statement], ql/ast/mod.rs:319-328, up to the
    call of the executor *)
Definition dispatch (root : bool) (cs : option bytes) (ts : list token) : dres :=
  match ts with
  | TKw (KStmt k) :: r => if is_blocking k then blocking root k r else nonblocking cs k r
  | _ => DErr DxExpected
  end.

(** ** A connection *)

(** [ClientLocalState], net/protocol/mod.rs:98-129: the session and the current space *)
Record conn := mk_conn { c_se : session; c_cs : option bytes }.

(** the order of a hash map and the password hash, as in GnsModel.v *)
Variable order : list (bytes * field) -> list (bytes * field).
Variable hash : bytes -> N -> bytes.
(** the rows of all models with what DML answers, abstractly: a DML statement reads the namespace and
    changes rows only, INSPECT (core/ddl_misc.rs:34-103) changes nothing *)
Variable data : Type.
Variable dans : Type.
Variable dml : request -> ns -> data -> data * dans.
Variable inspect : session -> ns -> data -> inspect_stmt -> dans.

(** what a query is answered with, net/protocol/mod.rs (see NetModel.v for the bytes) *)
Inductive answer :=
| AnDdl (o : outcome) | AnErr (e : derr) | AnNotFound | AnEmpty | AnNull | AnName (k : bytes) | AnData (a : dans)
| AnDead.

(** [contains_space], core/mod.rs:166-168 *)
Definition has_space (k : bytes) (n : ns) : bool :=
  match aget bseq k (n_spaces n) with Some _ => true | None => false end.

(** [cstate_use], core/exec.rs:202-238 *)
Definition do_use (c : conn) (n : ns) (u : use_stmt) : conn * answer :=
  match u with
  | UseNull => (mk_conn (c_se c) None, AnEmpty)
  | UseSpace k => if has_space k n then (mk_conn (c_se c) (Some k), AnEmpty) else (c, AnNotFound)
  | UseCurrent =>
      match c_cs c with
      | None => (c, AnNull)
      | Some k => if has_space k n then (c, AnName k) else (mk_conn (c_se c) None, AnNotFound)
      end
  end.

(** a whole query on a connection: core/exec.rs:44-64. A panic ends the connection's task. *)
Definition query (c : conn) (en : env) (w : world) (d : data) (ts : list token) : conn * world * data * answer :=
  match dispatch (se_root (c_se c)) (c_cs c) ts with
  | DReq (RqDdl s) => let '(w', o) := exec_stmt order hash (c_se c) en w s in (c, w', d, AnDdl o)
  | DReq (RqUse u) => let '(c', a) := do_use c (w_ns w) u in (c', w, d, a)
  | DReq (RqInspect i) => (c, w, d, AnData (inspect (c_se c) (w_ns w) d i))
  | DReq r => let '(d', a) := dml r (w_ns w) d in (c, w, d', AnData a)
  | DErr e => (c, w, d, AnErr e)
  | DPanic | DUb | DFuel => (c, w, d, AnDead)
  end.

(** the current space after some queries. What other connections do in between is arbitrary: each query
    comes with the state of the system it finds. *)
Definition use_step (c : conn) (q : env * world * data * list token) : conn :=
  let '(en, w, d, ts) := q in let '(c', _, _, _) := query c en w d ts in c'.
(** queries one after the other on one connection, net/protocol/mod.rs *)
Definition connection (se : session) (l : list (env * world * data * list token)) : conn :=
  fold_left use_step l (mk_conn se None).
End Exec.
