(** The loop of the interactive shell: cli/src/repl.rs, on top of ShellModel.v (cli/src/query.rs) and of
    the server's lexer and dispatch (LexModel.v, ExecModel.v). The line editor, its history and the
    terminal are not modelled. *)
From Coq Require Import Strings.String List NArith Bool.
From Verif Require Import Bytes DataModel CodecModel AMap TypeModel GnsModel RowModel LexModel ParseModel DdlModel Utf8 ShellModel ExecModel.
Import ListNotations.
Local Open Scope N_scope.

Section Repl.
(** [f64::from_str], as in ShellModel.v *)
Variable parse_f64 : bytes -> option N.
(** what the client library sends for a parameter ([SQParam], cli/src/query.rs:93-103; the library is
    not part of the repository) *)
Variable enc : item -> bytes.
(** as in ExecModel.v *)
Variable uuid_text : nat -> bytes.
Variable uuid_bin : nat -> bytes.
Variable now_secs : nat -> N.
Variable order : list (bytes * field) -> list (bytes * field).
Variable hash : bytes -> N -> bytes.
Variable data : Type.
Variable dans : Type.
Variable dml : request -> ns -> data -> data * dans.
Variable inspect : session -> ns -> data -> inspect_stmt -> dans.
(** whether a data statement's answer is an error code; [None]: the connection was closed *)
Variable dtold : dans -> option bool.

(** what [format_response] returns, cli/src/resp.rs:43-76: false for an error code, true for any other
    answer. [None]: no answer, the query fails in the library and [repl] returns
    (cli/src/repl.rs:106, [?]). *)
Definition told (a : answer dans) : option bool :=
  match a with
  | AnDdl _ (OErr _) => Some false
  | AnDdl _ OPanic => None
  | AnDdl _ _ => Some true
  | AnErr _ _ | AnNotFound _ => Some false
  | AnEmpty _ | AnNull _ | AnName _ _ => Some true
  | AnData _ x => dtold x
  | AnDead _ => None
  end.

(** cli/src/repl.rs:76: the prompt of a new session; 94: after USE NULL *)
Definition prompt0 : bytes := bstr "> "%string.
(** cli/src/repl.rs:89-104: the prompt to be shown if the answer is not an error *)
Definition next_prompt (k : ekind) : option bytes :=
  match k with
  | KUseNull => Some prompt0
  | KUseSpace s => Some (s ++ bstr "> "%string)
  | KStandard | KSpecial => None
  end.

(** the shell and its connection *)
Record shell := mk_shell { s_prompt : bytes; s_conn : conn }.
(** the loop goes on; the loop ends (81: exit; 106, 117: an error); the shell crashes (query.rs:160) *)
Inductive rres := RGo (s : shell) (w : world) (d : data) | REnd | RCrash.

(** one round of the loop, cli/src/repl.rs:77-121, with the whole way of the query through the server *)
Definition repl_line (s : shell) (en : env) (w : world) (d : data) (line : bytes) : rres :=
  if bseq line (bstr "!help"%string) then RGo s w d
  else if bseq line (bstr "exit"%string) then REnd
  else if bseq line (bstr "clear"%string) then RGo s w d
  else match line with
  | [] => RGo s w d
  | _ =>
      match parameterize parse_f64 line with
      | ShPanic => RCrash
      | ShErr _ => RGo s w d
      | ShOk k q ps =>
          match lex utf8_ok parse_f64 q (concat (map enc ps)) with
          | LexOk ts =>
              let '(c', w', d', a) := query uuid_text uuid_bin now_secs order hash data dans dml inspect (s_conn s) en w d ts in
              match told a with
              | Some true => RGo (mk_shell (match next_prompt k with Some p => p | None => s_prompt s end) c') w' d'
              | Some false => RGo (mk_shell (s_prompt s) c') w' d'
              | None => REnd
              end
          | _ => RGo s w d
          end
      end
  end.

(** a session: the prompt and the connection after some lines. What other connections do in between is
    arbitrary: each line comes with the state of the system it finds. *)
Fixpoint repl_run (s : shell) (l : list (env * world * data * bytes)) : option shell :=
  match l with
  | [] => Some s
  | (en, w, d, line) :: r =>
      match repl_line s en w d line with RGo s' _ _ => repl_run s' r | _ => None end
  end.
End Repl.
