(** The shell's command line (/repo/libsky/src/lib.rs:131-177, /repo/cli/src/args.rs:44-170) and its password prompt (args.rs:172-208).
    Strings are their UTF-8 bytes; [==], [str::split] and [u16::from_str] are those of [ConfigModel]. *)
From Coq Require Import Strings.String.
From Coq Require Import List NArith Bool Init.Byte.
From Verif Require Import Bytes ConfigModel.
Import ListNotations.
Local Open Scope string_scope.
Local Open Scope list_scope.
Local Open Scope N_scope.

(** ** Arguments (libsky/src/lib.rs) *)
(** the hash map of 135, in the order of insertion *)
Definition argmap := list (bytes * bytes).
(** [HashMap::get] / [entry] (135, 145) *)
Fixpoint lookup (k : bytes) (m : argmap) : option bytes :=
  match m with [] => None | (x, v) :: r => if beqb x k then Some v else lookup k r end.
(** [HashMap::remove] (args.rs:93, 115, 143, 150, 160) *)
Fixpoint remove (k : bytes) (m : argmap) : argmap :=
  match m with [] => [] | (x, v) :: r => if beqb x k then remove k r else (x, v) :: remove k r end.
(** 63-70, with the errors of 121-126 *)
Inductive action := AcHelp | AcVersion | AcArgs (m : argmap) | AcDuplicate (k : bytes) | AcMissing (a : bytes).
(** 132-153 with [extract_arg] (158-177) in it *)
Fixpoint deny_loop (l : list bytes) (m : argmap) : action :=
  match l with
  | [] => AcArgs m
  | a :: l' =>
      if beqb a (bstr "--help") then AcHelp else
      if beqb a (bstr "--version") then AcVersion else
      match split_on x3d a with
      | [k; v] => match lookup k m with None => deny_loop l' (m ++ [(k, v)]) | Some _ => AcDuplicate k end
      | [_] =>
          match l' with
          | [] => AcMissing a
          | v :: l'' => match lookup a m with None => deny_loop l'' (m ++ [(a, v)]) | Some _ => AcDuplicate a end
          end
      | _ => AcMissing a
      end
  end.
(** 136: the first argument is the program *)
Definition parse_args_deny_duplicate (argv : list bytes) : action := deny_loop (tl argv) [].

(** ** Tasks (cli/src/args.rs) *)
(** 61-65 *)
Inductive conn := CTcp (host : bytes) (port : N) | CTls (host : bytes) (port : N) (cert : bytes).
(** 44-49 *)
Record client := mk_client { k_conn : conn; k_user : bytes; k_pass : bytes }.
(** 67-72; the texts of help and version (42, 83) are not modelled *)
Inductive task := THelp | TVersion | TShell (c : client) | TExec (c : client) (q : bytes).
(** what can go wrong: 80, 99-104, 110, 129, 136, 168; a file (125) or the prompt (156) *)
Inductive argerr := XArgs (a : action) | XEndpoint | XPort | XNoCert | XProtocol | XUnknown | XIo.

Section Parse.
(** [fs::read_to_string] (125); the environment variable SKYDB_PASSWORD (154; [None] if it is missing or not UTF-8); what is typed at the prompt (156;
    [None] if that fails) *)
Variable files : bytes -> option bytes.
Variable env_password : option bytes.
Variable prompt : option bytes.
(** 93-142: the endpoint, and the arguments left *)
Definition parse_conn (m : argmap) : (conn * argmap) + argerr :=
  match lookup (bstr "--endpoint") m with
  | None => inl (CTcp (bstr "127.0.0.1") 2003, m)
  | Some ep =>
      let m := remove (bstr "--endpoint") m in
      match split_on x40 ep with
      | [pr; hp] =>
          match split_on x3a hp with
          | [host; port] =>
              match parse_uint u16_max port with
              | None => inr XPort
              | Some port =>
                  let cert := lookup (bstr "--tls-cert") m in
                  let m := remove (bstr "--tls-cert") m in
                  if beqb pr (bstr "tcp") then inl (CTcp host port, m)
                  else if beqb pr (bstr "tls") then
                    match cert with
                    | None => inr XNoCert
                    | Some path => match files path with Some text => inl (CTls host port text, m) | None => inr XIo end
                    end
                  else inr XProtocol
              end
          | _ => inr XEndpoint
          end
      | _ => inr XEndpoint
      end
  end.
(** 150-159 *)
Definition parse_pass (m : argmap) : option bytes :=
  match lookup (bstr "--password") m with Some p => Some p | None => match env_password with Some p => Some p | None => prompt end end.
(** 88-170 *)
Definition parse (argv : list bytes) : task + argerr :=
  match parse_args_deny_duplicate argv with
  | AcHelp => inl THelp
  | AcVersion => inl TVersion
  | AcArgs m =>
      match parse_conn m with
      | inr e => inr e
      | inl (c, m) =>
          let user := match lookup (bstr "--user") m with Some u => u | None => bstr "root" end in
          let m := remove (bstr "--user") m in
          match parse_pass m with
          | None => inr XIo
          | Some pass =>
              let m := remove (bstr "--password") m in
              let eval := lookup (bstr "--eval") m in
              match remove (bstr "--eval") m with
              | [] => inl (match eval with Some q => TExec (mk_client c user pass) q | None => TShell (mk_client c user pass) end)
              | _ => inr XUnknown
              end
          end
      end
  | a => inr (XArgs a)
  end.
End Parse.

(** ** The prompt (cli/src/args.rs:172-208) *)
(** a key of the crossterm library (195-200): a character, or one of the others *)
Inductive key := KChar (c : N) | KBackspace | KEnter | KOther.
(** 182, 192 *)
Inductive kkind := Press | Repeat | Release.
(** [KeyModifiers] is a set of bits: NONE 0 (191), SHIFT 1, CONTROL 2 (181), ALT 4 *)
Definition m_none : N := 0.
(** SHIFT: a constant of the library crossterm, no line of the code names it *)
Definition m_shift : N := 1.
(** CONTROL, cli/src/args.rs:181 *)
Definition m_control : N := 2.
(** what [event::read] answers (178): a key, another event, or an error *)
Inductive event := EKey (k : key) (mods : N) (kind : kkind) | EOther | EFail.
(** how it ends: the password (207), the process ends (187), an error (178), or it still waits; with the terminal's raw mode on or off (176, 185, 205).
    Simplified: switching the mode and printing do not fail. *)
Inductive outcome := Password (p : list N) (raw : bool) | Exit (raw : bool) | Failed (raw : bool) | Waiting (p : list N).
(** the loop, 177-204 *)
Fixpoint read_loop (p : list N) (es : list event) : outcome :=
  match es with
  | [] => Waiting p
  | EFail :: _ => Failed true
  | EKey k m Press :: r =>
      if (match k with KChar c => c =? 99 | _ => false end) && (m =? m_control) then Exit false
      else if m =? m_none then
        match k with
        | KBackspace => read_loop (removelast p) r
        | KChar c => read_loop (p ++ [c]) r
        | KEnter => Password p false
        | KOther => read_loop p r
        end
      else read_loop p r
  | _ :: r => read_loop p r
  end.
(** 172-208 *)
Definition read_password (es : list event) : outcome := read_loop [] es.
