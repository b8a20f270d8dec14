(** How the shell prints an answer. All paths are below /repo/cli/src/. The text that goes to standard
    output is modelled as a byte string; a string is its UTF-8 bytes (the characters treated specially
    are ASCII, so looking at bytes is the same as looking at characters). *)
From Coq Require Import Strings.String List NArith ZArith Bool.
From Verif Require Import Bytes NumModel.
Import ListNotations.
Local Open Scope N_scope.

(** [skytable::response::Value] of the client library (not part of /repo), as the arms of resp.rs:91-117
    use it: the widths of integers are dropped, they print alike; floats are their bits *)
Inductive value :=
| VNull | VBool (b : bool) | VUInt (n : N) | VSInt (z : Z) | VF32 (w : N) | VF64 (w : N)
| VStr (s : bytes) | VBin (b : bytes) | VList (l : list value).
(** [skytable::response::Response], the arms of resp.rs:44-73 *)
Inductive response := RsEmpty | RsError (code : N) | RsValue (v : value) | RsRow (r : list value) | RsRows (rs : list (list value)).

Section Print.
(** [Display] of the floats; the styles of the crossterm crate: [italic().grey()], [cyan()], [red()] *)
Variable f32 f64 : N -> bytes.
Variable sty okay red : bytes -> bytes.

(** the loops of resp.rs:78-88, 107-114 and 121-128: pieces with [", "] in between *)
Fixpoint commas (l : list bytes) : bytes :=
  match l with
  | [] => []
  | [a] => a
  | a :: r => a ++ bstr ", "%string ++ commas r
  end.

(** [print_binary], resp.rs:120-130 *)
Definition print_binary (b : bytes) : bytes := bstr "["%string ++ commas (map (fun x => dec_u64 (b2n x)) b) ++ bstr "]"%string.

(** one character of [print_string], resp.rs:140-150 *)
Definition print_char (b : byte) : bytes :=
  if beq b x22 then [x5c; b] else if beq b x09 then bstr "\t"%string else if beq b x0a then bstr "\n"%string else [b].
(** [print_string], resp.rs:132-154 *)
Definition print_string (special pretty : bool) (s : bytes) : bytes :=
  if negb pretty then s
  else if special then sty s
  else bstr """"%string ++ concat (map print_char s) ++ bstr """"%string.

(** [print_value], resp.rs:90-118; a null goes through [println!] of [pprint!], resp.rs:32-41 *)
Fixpoint print_value (special pretty : bool) (v : value) : bytes :=
  match v with
  | VNull => (if pretty then sty (bstr "null"%string) else bstr "null"%string) ++ [LF]
  | VStr s => print_string special pretty s
  | VBin b => print_binary b
  | VBool b => if b then bstr "true"%string else bstr "false"%string
  | VUInt n => dec_u64 n
  | VSInt z => if (z <? 0)%Z then x2d :: dec_u64 (Z.abs_N z) else dec_u64 (Z.to_N z)
  | VF32 w => f32 w
  | VF64 w => f64 w
  | VList l => bstr "["%string ++ commas (map (print_value special pretty) l) ++ bstr "]"%string
  end.

(** [print_row], resp.rs:78-88 *)
Definition print_row (pretty : bool) (r : list value) : bytes :=
  bstr "("%string ++ commas (map (print_value false pretty) r) ++ bstr ")"%string.

(** the loop of resp.rs:62-71: rows are numbered from 1 *)
Fixpoint print_rows (pretty : bool) (i : N) (rs : list (list value)) : bytes :=
  match rs with
  | [] => []
  | r :: rest =>
      let num := bstr "("%string ++ dec_u64 i ++ bstr ")"%string in
      (if pretty then sty num else num) ++ print_row pretty r ++ [LF] ++ print_rows pretty (i + 1) rest
  end.

(** [format_response], resp.rs:43-76 *)
Definition format_response (special pretty : bool) (r : response) : bytes :=
  match r with
  | RsEmpty => (if pretty then okay (bstr "(Okay)"%string) else bstr "(Okay)"%string) ++ [LF]
  | RsError e => red (bstr "(server error code: "%string ++ dec_u64 e ++ bstr ")"%string) ++ [LF]
  | RsValue v => print_value special pretty v ++ [LF]
  | RsRow r => print_row pretty r ++ [LF]
  | RsRows [] => (if pretty then sty (bstr "[0 rows returned]"%string) else bstr "[0 rows returned]"%string) ++ [LF]
  | RsRows rs => print_rows pretty 1 rs
  end.
End Print.
