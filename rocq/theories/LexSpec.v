(** What the lexer is supposed to do, written without its helpers: spelling of symbols and reserved
    words, the tokens of a text, the wire form of parameters. *)
From Coq Require Import Strings.String List NArith ZArith Bool.
From Verif Require Import Bytes NumModel NumProofs RowModel LexModel.
Import ListNotations.
Local Open Scope N_scope.

(** the character of a symbol *)
Definition sym_char (s : sym) : byte :=
  match s with
  | SAdd => x2b (* + *)
  | SSub => x2d (* - *)
  | SMul => x2a (* * *)
  | SDiv => x2f (* / *)
  | SNot => x21 (* ! *)
  | SAnd => x26 (* & *)
  | SXor => x5e (* ^ *)
  | SOr => x7c (* | *)
  | SAssign => x3d (* = *)
  | SOpenParen => x28 (* ( *)
  | SCloseParen => x29 (* ) *)
  | SOpenSq => x5b (* [ *)
  | SCloseSq => x5d (* ] *)
  | SOpenBrace => x7b (* { *)
  | SCloseBrace => x7d (* } *)
  | SLt => x3c (* < *)
  | SGt => x3e (* > *)
  | SQuoteS => x27 (* ' *)
  | SQuoteD => x22 (* double quote *)
  | SAt => x40 (* @ *)
  | SHash => x23 (* # *)
  | SDollar => x24 (* $ *)
  | SPercent => x25 (* % *)
  | SUnderscore => x5f (* _ *)
  | SBackslash => x5c (* \ *)
  | SColon => x3a (* : *)
  | SSemicolon => x3b (* ; *)
  | SComma => x2c (* , *)
  | SPeriod => x2e (* . *)
  | SQuestion => x3f (* ? *)
  | STilde => x7e (* ~ *)
  | SAccent => x60 (* ` *)
  end.

(** the spelling of a reserved word, in lower case *)
Definition spelling (k : kw) : bytes :=
  bstr (match k with
  | KStmt KsSysctl => "sysctl"
  | KStmt KsCreate => "create"
  | KStmt KsAlter => "alter"
  | KStmt KsDrop => "drop"
  | KStmt KsUse => "use"
  | KStmt KsInspect => "inspect"
  | KStmt KsDescribe => "describe"
  | KStmt KsInsert => "insert"
  | KStmt KsSelect => "select"
  | KStmt KsUpdate => "update"
  | KStmt KsDelete => "delete"
  | KStmt KsExists => "exists"
  | KMisc KmTable => "table"
  | KMisc KmModel => "model"
  | KMisc KmSpace => "space"
  | KMisc KmIndex => "index"
  | KMisc KmType => "type"
  | KMisc KmFunction => "function"
  | KMisc KmRename => "rename"
  | KMisc KmAdd => "add"
  | KMisc KmRemove => "remove"
  | KMisc KmTransform => "transform"
  | KMisc KmSet => "set"
  | KMisc KmReturn => "return"
  | KMisc KmOrder => "order"
  | KMisc KmSort => "sort"
  | KMisc KmGroup => "group"
  | KMisc KmLimit => "limit"
  | KMisc KmAsc => "asc"
  | KMisc KmDesc => "desc"
  | KMisc KmAll => "all"
  | KMisc KmBy => "by"
  | KMisc KmWith => "with"
  | KMisc KmOn => "on"
  | KMisc KmFrom => "from"
  | KMisc KmInto => "into"
  | KMisc KmAs => "as"
  | KMisc KmTo => "to"
  | KMisc KmIn => "in"
  | KMisc KmOf => "of"
  | KMisc KmAnd => "and"
  | KMisc KmOr => "or"
  | KMisc KmNot => "not"
  | KMisc KmIf => "if"
  | KMisc KmElse => "else"
  | KMisc KmWhere => "where"
  | KMisc KmWhen => "when"
  | KMisc KmAllow => "allow"
  | KMisc KmAuto => "auto"
  | KMisc KmDefault => "default"
  | KMisc KmNull => "null"
  | KMisc KmTransaction => "transaction"
  | KMisc KmBatch => "batch"
  | KMisc KmLock => "lock"
  | KMisc KmRead => "read"
  | KMisc KmWrite => "write"
  | KMisc KmBegin => "begin"
  | KMisc KmEnd => "end"
  | KMisc KmKey => "key"
  | KMisc KmValue => "value"
  | KMisc KmPrimary => "primary"
  | KMisc KmTruncate => "truncate"
  end)%string.

(** ASCII letters in upper case are made lower case, all other bytes stay *)
Definition low (b : byte) : byte :=
  match b with
  | x41 => x61
  | x42 => x62
  | x43 => x63
  | x44 => x64
  | x45 => x65
  | x46 => x66
  | x47 => x67
  | x48 => x68
  | x49 => x69
  | x4a => x6a
  | x4b => x6b
  | x4c => x6c
  | x4d => x6d
  | x4e => x6e
  | x4f => x6f
  | x50 => x70
  | x51 => x71
  | x52 => x72
  | x53 => x73
  | x54 => x74
  | x55 => x75
  | x56 => x76
  | x57 => x77
  | x58 => x78
  | x59 => x79
  | x5a => x7a
  | _ => b
  end.

(** letters, digits and the underscore; a word does not start with a digit *)
Definition letter (b : byte) : Prop := 97 <= b2n (low b) <= 122.
Definition wbyte (b : byte) : Prop := letter b \/ 48 <= b2n b <= 57 \/ b = x5f.
Definition wstart (b : byte) : Prop := letter b \/ b = x5f.
Definition is_word (w : bytes) : Prop :=
  match w with [] => False | b :: r => wstart b /\ Forall wbyte r end.

(** the token of a word: a keyword, a truth value, else an identifier *)
Inductive word_tok (w : bytes) : token -> Prop :=
| WtKw k : map low w = spelling k -> word_tok w (TKw k)
| WtTrue : map low w = bstr "true"%string -> word_tok w (TLit (LBool true))
| WtFalse : map low w = bstr "false"%string -> word_tok w (TLit (LBool false))
| WtId : (forall k, map low w <> spelling k) -> map low w <> bstr "true"%string ->
         map low w <> bstr "false"%string -> word_tok w (TId w).

(** space, tab, line feed *)
Definition blank (b : byte) : Prop := b = x20 \/ b = x09 \/ b = x0a.

(** the tokens of a text: words are as long as possible, blanks separate, every other byte must be
    a symbol *)
Inductive toks : bytes -> list token -> Prop :=
| TsNil : toks [] []
| TsBlank b q ts : blank b -> toks q ts -> toks (b :: q) ts
| TsWord w q t ts : is_word w -> (match q with [] => True | b :: _ => ~ wbyte b end) ->
                    word_tok w t -> toks q ts -> toks (w ++ q) (t :: ts)
| TsSym s q ts : s <> SUnderscore -> toks q ts -> toks (sym_char s :: q) (TSym s :: ts).

(** a parameter placeholder *)
Definition hole (t : token) : bool := match t with TSym SQuestion => true | _ => false end.
Definition holes (ts : list token) : nat := length (filter hole ts).

(** the placeholders are replaced in order; when the values run out the rest stays *)
Fixpoint fill (ts : list token) (vs : list token) : list token :=
  match ts, vs with
  | [], _ => []
  | t :: ts', [] => ts
  | t :: ts', v :: vs' => if hole t then v :: fill ts' vs' else t :: fill ts' vs
  end.

Section Params.
Variable utf8 : bytes -> bool.
Variable parse_f64 : bytes -> option N.

(** the signed integers accepted on the wire and their text: digits, or a minus sign and digits
    -- possibly none -- within the range of 64 bits *)
Inductive sint_text : bytes -> Z -> Prop :=
| SiPos ds : ds <> [] -> all_digits ds -> horner 0 ds < 9223372036854775808 -> sint_text ds (Z.of_N (horner 0 ds))
| SiNeg ds : all_digits ds -> horner 0 ds <= 9223372036854775808 -> sint_text (x2d :: ds) (- Z.of_N (horner 0 ds)).

(** at least two bytes in all *)
Definition two (a b : bytes) : Prop := 2 <= len (a ++ b).

(** [reads p v rest]: the block [p] starts with one parameter of value [v] and continues with [rest] *)
Inductive reads : bytes -> token -> bytes -> Prop :=
| RdNull rest : reads (x00 :: rest) (TKw (KMisc KmNull)) rest
| RdFalse rest : reads (x01 :: x00 :: rest) (TLit (LBool false)) rest
| RdTrue rest : reads (x01 :: x01 :: rest) (TLit (LBool true)) rest
| RdUInt ds rest : all_digits ds -> horner 0 ds < two64 -> two (ds ++ [LF]) rest ->
    reads (x02 :: ds ++ LF :: rest) (TLit (LUInt (horner 0 ds))) rest
| RdSInt s z rest : sint_text s z ->
    reads (x03 :: s ++ LF :: rest) (TLit (LSInt (Z.to_N (z mod 18446744073709551616)))) rest
| RdFloat s w rest : ~ In LF s -> utf8 s = true -> parse_f64 s = Some w -> two (s ++ [LF]) rest ->
    reads (x04 :: s ++ LF :: rest) (TLit (LFloat w)) rest
| RdBin ds b rest : all_digits ds -> horner 0 ds = len b -> len b < two64 -> two (ds ++ [LF]) (b ++ rest) ->
    reads (x05 :: ds ++ LF :: b ++ rest) (TLit (LBin b)) rest
| RdStr ds b rest : all_digits ds -> horner 0 ds = len b -> len b < two64 -> utf8 b = true ->
    two (ds ++ [LF]) (b ++ rest) -> reads (x06 :: ds ++ LF :: b ++ rest) (TLit (LStr b)) rest.

(** [params p n vs]: with [n] placeholders to fill, the block [p] gives the values [vs]: either it
    ends before the placeholders do, or what follows the last needed value is ignored *)
Inductive params : bytes -> nat -> list token -> Prop :=
| PsEnd n : params [] n []
| PsDone p : params p 0 []
| PsOne p v p' n vs : reads p v p' -> params p' n vs -> params p (S n) (v :: vs).

(** what a client sends: the canonical form of a value *)
Inductive pval := PNull | PBool (b : bool) | PUInt (n : N) | PSInt (z : Z) | PFloat (text : bytes) | PBin (b : bytes) | PStr (b : bytes).

Definition pval_ok (v : pval) : Prop :=
  match v with
  | PNull | PBool _ => True
  | PUInt n => n < two64
  | PSInt z => (-9223372036854775808 <= z < 9223372036854775808)%Z
  | PFloat s => s <> [] /\ ~ In LF s /\ utf8 s = true /\ parse_f64 s <> None
  | PBin b => len b < two64
  | PStr b => len b < two64 /\ utf8 b = true
  end.

Inductive encodes : pval -> bytes -> Prop :=
| EnNull : encodes PNull [x00]
| EnFalse : encodes (PBool false) [x01; x00]
| EnTrue : encodes (PBool true) [x01; x01]
| EnUInt n s : dec_text n s -> encodes (PUInt n) (x02 :: s ++ [LF])
| EnSInt z s : int_text z s -> encodes (PSInt z) (x03 :: s ++ [LF])
| EnFloat s : encodes (PFloat s) (x04 :: s ++ [LF])
| EnBin b s : dec_text (len b) s -> encodes (PBin b) (x05 :: s ++ LF :: b)
| EnStr b s : dec_text (len b) s -> encodes (PStr b) (x06 :: s ++ LF :: b).

(** the token that carries the value *)
Definition carries (v : pval) (t : token) : Prop :=
  match v with
  | PNull => t = TKw (KMisc KmNull)
  | PBool b => t = TLit (LBool b)
  | PUInt n => t = TLit (LUInt n)
  | PSInt z => exists w, t = TLit (LSInt w) /\ w < two64 /\
                 z = (if (w <? 9223372036854775808)%N then Z.of_N w else Z.of_N w - 18446744073709551616)%Z
  | PFloat s => exists w, parse_f64 s = Some w /\ t = TLit (LFloat w)
  | PBin b => t = TLit (LBin b)
  | PStr b => t = TLit (LStr b)
  end.

End Params.
