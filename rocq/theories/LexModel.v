(** The query lexer: [ql/lex/mod.rs] ([SecureLexer]), [ql/lex/raw.rs] (symbols and keywords) and the
    signed integer scanner of [mem/scanner.rs]. All paths are below /repo/server/src/engine/. *)
From Coq Require Import Strings.String List NArith ZArith Bool.
From Verif Require Import Bytes NumModel RowModel.
Import ListNotations.
Local Open Scope N_scope.

(* ------------------------------------------------------------------ *)
(** * Symbols *)

(** ql/lex/raw.rs:199-232 [Symbol], in the order of the enumeration *)
Inductive sym :=
| SAdd | SSub | SMul | SDiv | SNot | SAnd | SXor | SOr | SAssign | SOpenParen | SCloseParen
| SOpenSq | SCloseSq | SOpenBrace | SCloseBrace | SLt | SGt | SQuoteS | SQuoteD | SAt | SHash
| SDollar | SPercent | SUnderscore | SBackslash | SColon | SSemicolon | SComma | SPeriod
| SQuestion | STilde | SAccent.

(** ql/lex/raw.rs:195-235 [SYM_LUT]: the byte and the symbol, in the order of the enumeration *)
Definition sym_lut : list (byte * sym) :=
  [(x2b, SAdd); (x2d, SSub); (x2a, SMul); (x2f, SDiv); (x21, SNot); (x26, SAnd); (x5e, SXor);
   (x7c, SOr); (x3d, SAssign); (x28, SOpenParen); (x29, SCloseParen); (x5b, SOpenSq);
   (x5d, SCloseSq); (x7b, SOpenBrace); (x7d, SCloseBrace); (x3c, SLt); (x3e, SGt); (x27, SQuoteS);
   (x22, SQuoteD); (x40, SAt); (x23, SHash); (x24, SDollar); (x25, SPercent); (x5f, SUnderscore);
   (x5c, SBackslash); (x3a, SColon); (x3b, SSemicolon); (x2c, SComma); (x2e, SPeriod);
   (x3f, SQuestion); (x7e, STilde); (x60, SAccent)].

(** ql/lex/raw.rs:241-245 [G] of [Symbol::get] *)
Definition sym_g : list N :=
  [0; 0; 25; 0; 3; 0; 21; 0; 6; 13; 0; 0; 0; 0; 8; 0; 0; 0; 17; 0; 0; 30; 0; 28; 0; 20;
   19; 12; 0; 0; 2; 0; 0; 15; 0; 0; 0; 5; 0; 31; 14; 0; 1; 0; 18; 29; 24; 0; 0; 10; 0; 0;
   26; 0; 0; 0; 22; 0; 23; 7; 0; 27; 0; 4; 16; 11; 0; 0; 9].

(** indexing a static table; every index below is taken modulo the table's length *)
Definition tbl (g : list N) (i : N) : N := nth (N.to_nat i) g 0.

(** ql/lex/raw.rs:246 [symfh]; the product of two bytes fits the u16 *)
Definition symfh (magic k : N) : N := (magic * k) mod 69.

(** ql/lex/raw.rs:238-254 [Symbol::get]; 119 is [b'w'], 69 is [b'E']. The [u8] sum of two table
    entries is at most 62. *)
Definition sym_get (k : byte) : option sym :=
  let hf := (tbl sym_g (symfh (b2n k) 119) + tbl sym_g (symfh (b2n k) 69)) mod 69 in
  match nth_error sym_lut (N.to_nat hf) with
  | Some (c, s) => if beq c k then Some s else None
  | None => None
  end.

(* ------------------------------------------------------------------ *)
(** * Keywords *)

(** ql/lex/raw.rs:335-352 [KeywordStmt] *)
Inductive kstmt :=
| KsSysctl | KsCreate | KsAlter | KsDrop | KsUse | KsInspect | KsDescribe | KsInsert | KsSelect
| KsUpdate | KsDelete | KsExists.
(** ql/lex/raw.rs:359-420 [KeywordMisc] *)
Inductive kmisc :=
| KmTable | KmModel | KmSpace | KmIndex | KmType | KmFunction | KmRename | KmAdd | KmRemove
| KmTransform | KmSet | KmReturn | KmOrder | KmSort | KmGroup | KmLimit | KmAsc | KmDesc | KmAll
| KmBy | KmWith | KmOn | KmFrom | KmInto | KmAs | KmTo | KmIn | KmOf | KmAnd | KmOr | KmNot | KmIf
| KmElse | KmWhere | KmWhen | KmAllow | KmAuto | KmDefault | KmNull | KmTransaction | KmBatch
| KmLock | KmRead | KmWrite | KmBegin | KmEnd | KmKey | KmValue | KmPrimary | KmTruncate.
(** ql/lex/raw.rs:330 [Keyword] *)
Inductive kw := KStmt (k : kstmt) | KMisc (k : kmisc).

(** ql/lex/raw.rs:320-322,326-423 [KW]: the names are the enumeration's variants with the first
    letter lowered (289-298) *)
Definition kw_lut : list (bytes * kw) :=
  [(bstr "sysctl"%string, KStmt KsSysctl); (bstr "create"%string, KStmt KsCreate); (bstr "alter"%string, KStmt KsAlter);
   (bstr "drop"%string, KStmt KsDrop); (bstr "use"%string, KStmt KsUse); (bstr "inspect"%string, KStmt KsInspect);
   (bstr "describe"%string, KStmt KsDescribe); (bstr "insert"%string, KStmt KsInsert);
   (bstr "select"%string, KStmt KsSelect); (bstr "update"%string, KStmt KsUpdate);
   (bstr "delete"%string, KStmt KsDelete); (bstr "exists"%string, KStmt KsExists); (bstr "table"%string, KMisc KmTable);
   (bstr "model"%string, KMisc KmModel); (bstr "space"%string, KMisc KmSpace); (bstr "index"%string, KMisc KmIndex);
   (bstr "type"%string, KMisc KmType); (bstr "function"%string, KMisc KmFunction);
   (bstr "rename"%string, KMisc KmRename); (bstr "add"%string, KMisc KmAdd); (bstr "remove"%string, KMisc KmRemove);
   (bstr "transform"%string, KMisc KmTransform); (bstr "set"%string, KMisc KmSet);
   (bstr "return"%string, KMisc KmReturn); (bstr "order"%string, KMisc KmOrder); (bstr "sort"%string, KMisc KmSort);
   (bstr "group"%string, KMisc KmGroup); (bstr "limit"%string, KMisc KmLimit); (bstr "asc"%string, KMisc KmAsc);
   (bstr "desc"%string, KMisc KmDesc); (bstr "all"%string, KMisc KmAll); (bstr "by"%string, KMisc KmBy);
   (bstr "with"%string, KMisc KmWith); (bstr "on"%string, KMisc KmOn); (bstr "from"%string, KMisc KmFrom);
   (bstr "into"%string, KMisc KmInto); (bstr "as"%string, KMisc KmAs); (bstr "to"%string, KMisc KmTo);
   (bstr "in"%string, KMisc KmIn); (bstr "of"%string, KMisc KmOf); (bstr "and"%string, KMisc KmAnd);
   (bstr "or"%string, KMisc KmOr); (bstr "not"%string, KMisc KmNot); (bstr "if"%string, KMisc KmIf);
   (bstr "else"%string, KMisc KmElse); (bstr "where"%string, KMisc KmWhere); (bstr "when"%string, KMisc KmWhen);
   (bstr "allow"%string, KMisc KmAllow); (bstr "auto"%string, KMisc KmAuto); (bstr "default"%string, KMisc KmDefault);
   (bstr "null"%string, KMisc KmNull); (bstr "transaction"%string, KMisc KmTransaction);
   (bstr "batch"%string, KMisc KmBatch); (bstr "lock"%string, KMisc KmLock); (bstr "read"%string, KMisc KmRead);
   (bstr "write"%string, KMisc KmWrite); (bstr "begin"%string, KMisc KmBegin); (bstr "end"%string, KMisc KmEnd);
   (bstr "key"%string, KMisc KmKey); (bstr "value"%string, KMisc KmValue); (bstr "primary"%string, KMisc KmPrimary);
   (bstr "truncate"%string, KMisc KmTruncate)].

(** ql/lex/raw.rs:435-439 [G] of [Keyword::compute] *)
Definition kw_g : list N :=
  [0; 0; 9; 64; 16; 43; 7; 49; 24; 8; 41; 37; 19; 66; 18; 0; 17; 0; 12; 63; 34; 56; 3; 24;
   55; 14; 0; 67; 7; 0; 39; 60; 56; 0; 51; 23; 31; 19; 30; 12; 10; 58; 20; 39; 32; 0; 6;
   30; 26; 58; 52; 62; 39; 27; 24; 9; 4; 21; 24; 68; 10; 38; 40; 21; 62; 27; 53; 27; 44].
(** ql/lex/raw.rs:440 *)
Definition kw_m1 : bytes := bstr "D8N5FwqrxdA"%string.
(** ql/lex/raw.rs:441 *)
Definition kw_m2 : bytes := bstr "FsIPJv9hsXx"%string.

(** ql/lex/raw.rs:452-461 [Keyword::_sum]; the sum is at most 11 * 255 * 255, no overflow *)
Fixpoint kw_sum (key : bytes) (block : bytes) (i : nat) : N :=
  match key with
  | [] => 0
  | c :: r => b2n (nth (Nat.modulo i 11) block x00) * N.lor (b2n c) 32 + kw_sum r block (S i)
  end.

(** Rust's [u8::to_ascii_lowercase] *)
Definition lower (b : byte) : byte :=
  if (65 <=? b2n b) && (b2n b <=? 90) then n2b (b2n b + 32) else b.
(** Rust's [<[u8]>::eq_ignore_ascii_case] *)
Definition eq_ci (a b : bytes) : bool := bseq (map lower a) (map lower b).

(** ql/lex/raw.rs:434-450 [Keyword::compute]; the [u8] sum of two table entries is at most 135 *)
Definition kw_compute (key : bytes) : option kw :=
  let h1 := kw_sum key kw_m1 0 mod 69 in
  let h2 := kw_sum key kw_m2 0 mod 69 in
  let h := (tbl kw_g h1 + tbl kw_g h2) mod 69 in
  match nth_error kw_lut (N.to_nat h) with
  | Some (w, k) => if eq_ci w key then Some k else None
  | None => None
  end.

(** ql/lex/raw.rs:307-316 [SIZE_MIN], [SIZE_MAX]: "by" and "transaction"; 426-433 [Keyword::get] *)
Definition kw_get (k : bytes) : option kw :=
  if (11 <? len k) || (len k <? 2) then None else kw_compute k.

(* ------------------------------------------------------------------ *)
(** * Tokens *)

(** ql/lex/raw.rs:121-129 [Token] (without the test-only [IgnorableComma]) *)
Inductive token := TSym (s : sym) | TKw (k : kw) | TId (w : bytes) | TLit (l : lit).

(** [Token![null]], engine/macros.rs:115-190 *)
Definition tok_null : token := TKw (KMisc KmNull).

(** [QueryError::LexUnexpectedByte], [LexInvalidInput], engine/error.rs:52-55 *)
Inductive lexerr := LexByte | LexInput.
(** the result of [SecureLexer::lex]. [LexFuel] is only in the model: the proofs show it never
    happens. *)
Inductive lexres := LexOk (ts : list token) | LexErr (e : lexerr) | LexFuel.

(** Rust's [u8::is_ascii_alphabetic] *)
Definition is_alpha (b : byte) : bool :=
  ((65 <=? b2n b) && (b2n b <=? 90)) || ((97 <=? b2n b) && (b2n b <=? 122)).
(** the first byte of a word, ql/lex/mod.rs:373 *)
Definition word_start (b : byte) : bool := is_alpha b || beq b x5f.
(** the other bytes of a word, ql/lex/mod.rs:87 *)
Definition word_byte (b : byte) : bool := is_alpha b || is_digit b || beq b x5f.

(** ql/lex/mod.rs:81-97 [scan_ident]: the longest run of word bytes, and what follows *)
Fixpoint scan_ident (q : bytes) : bytes * bytes :=
  match q with
  | [] => ([], [])
  | b :: r => if word_byte b then let '(w, r') := scan_ident r in (b :: w, r') else ([], q)
  end.

(** ql/lex/mod.rs:99-113 [scan_ident_or_keyword] *)
Definition word_token (s : bytes) : token :=
  match kw_get s with
  | Some k => TKw k
  | None =>
      if eq_ci s (bstr "true"%string) || eq_ci s (bstr "false"%string)
      then TLit (LBool (eq_ci s (bstr "true"%string)))
      else TId s
  end.

(** white space: ql/lex/mod.rs:126-129 and the arm at 407 *)
Definition is_space (b : byte) : bool := beq b x20 || beq b x0a || beq b x09.
(** ql/lex/mod.rs:126-129 [trim_ahead], mem/scanner.rs:220-227 *)
Fixpoint trim_ahead (q : bytes) : bytes :=
  match q with
  | [] => []
  | b :: r => if is_space b then trim_ahead r else q
  end.

(* ------------------------------------------------------------------ *)
(** * Signed integers *)

(** the range of [i64] *)
Definition i64_ok (z : Z) : bool := ((-9223372036854775808 <=? z) && (z <=? 9223372036854775807))%Z.

(** mem/scanner.rs:366-396, the loop of [try_next_ascii_i64_stop_at] with the stop condition of
    line 344 for LF: (okay, value, rest). [checked_mul]/[checked_add]/[checked_sub] that fail end
    the loop with [okay = false]. *)
Fixpoint i64_loop (neg : bool) (rest : bytes) (ret : Z) (okay : bool) : bool * Z * bytes :=
  match rest with
  | [] => (okay, ret, [])
  | b :: r =>
      if beq b LF || negb okay then (okay, ret, rest)
      else
        let okay' := is_digit b in
        let m := (ret * 10)%Z in
        if negb (i64_ok m) then (false, ret, r)
        else
          let a := if neg then (m - Z.of_N (low4 b))%Z else (m + Z.of_N (low4 b))%Z in
          if negb (i64_ok a) then (false, m, r) else i64_loop neg r a okay'
  end.

(** mem/scanner.rs:343-365 [try_next_ascii_i64_separated_by::<b'\n'>]: [None] when refused. Called
    with at least two bytes left (ql/lex/mod.rs:418,439-447), so the rounded cursor is the first
    byte of the rest; for an empty rest the model refuses. *)
Definition lf_i64 (rest : bytes) : option (Z * bytes) :=
  match rest with
  | [] => None
  | c :: r =>
      let neg := beq c x2d in
      let rest1 := if neg then r else rest in
      let okay := neg || (is_digit c && negb (match rest1 with [] => true | _ => false end)) in
      match i64_loop neg rest1 0%Z okay with
      | (true, v, b :: r') => if beq b LF then Some (v, r') else None
      | _ => None
      end
  end.

(** [s as u64] in [Lit::new_sint], data/lit.rs:63-65 *)
Definition z2w (z : Z) : N := Z.to_N (z mod 18446744073709551616)%Z.

(* ------------------------------------------------------------------ *)
(** * Parameters *)

Section Lex.
(** [core::str::from_utf8] *)
Variable utf8 : bytes -> bool.
(** [f64::from_str] on UTF-8 text: the bits of the number *)
Variable parse_f64 : bytes -> option N.

(** ql/lex/mod.rs:448-465: the bytes before the first LF, and what follows it *)
Fixpoint until_lf (p : bytes) : option (bytes * bytes) :=
  match p with
  | [] => None
  | b :: r => if beq b LF then Some ([], r)
              else match until_lf r with Some (a, s) => Some (b :: a, s) | None => None end
  end.

(** ql/lex/mod.rs:466-482, 483-501: a length, then that many bytes (mem/scanner.rs:195-204) *)
Definition sized (p : bytes) : option (bytes * bytes) :=
  match lf_u64 p with
  | SVal n r => takeN n r
  | _ => None
  end.

(** ql/lex/mod.rs:374-406 (the arm for [?]) with [SCAN_PARAM_EXPECT] (418) and [SCAN_PARAM]
    (419-505). The argument is the unread rest of the parameter block, not empty. [None] stands for
    [LexInvalidInput]. A code above 6, or too few bytes for the code, selects the error entry. *)
Definition scan_param (p : bytes) : option (token * bytes) :=
  match p with
  | [] => None
  | code :: r =>
      match b2n code with
      | 0 => Some (tok_null, r)
      | 1 => match r with
             | [] => None
             | nb :: r' => if 1 <? b2n nb then None else Some (TLit (LBool (b2n nb =? 1)), r')
             end
      | 2 => if len r <? 2 then None
             else match lf_u64 r with SVal n r' => Some (TLit (LUInt n), r') | _ => None end
      | 3 => if len r <? 2 then None
             else match lf_i64 r with Some (z, r') => Some (TLit (LSInt (z2w z)), r') | None => None end
      | 4 => if len r <? 2 then None
             else match until_lf r with
                  | Some (s, r') =>
                      if utf8 s then match parse_f64 s with
                                     | Some w => Some (TLit (LFloat w), r')
                                     | None => None
                                     end
                      else None
                  | None => None
                  end
      | 5 => if len r <? 2 then None
             else match sized r with Some (b, r') => Some (TLit (LBin b), r') | None => None end
      | 6 => if len r <? 2 then None
             else match sized r with
                  | Some (b, r') => if utf8 b then Some (TLit (LStr b), r') else None
                  | None => None
                  end
      | _ => None
      end
  end.

(** one more token in front of a successful result *)
Definition lex_cons (t : token) (r : lexres) : lexres :=
  match r with LexOk ts => LexOk (t :: ts) | _ => r end.

(** ql/lex/mod.rs:366-415 [SecureLexer::_lex], 114-123 [scan_byte]; [q] and [p] are the unread rests of the query text
    and of the parameter block. A recorded error ends the loop and is the result; tokens pushed
    before it are dropped. [fuel] bounds the number of rounds. *)
Fixpoint lex_go (fuel : nat) (q p : bytes) : lexres :=
  match fuel with
  | O => LexFuel
  | S f =>
      match q with
      | [] => LexOk []
      | b :: r =>
          if word_start b then
            let '(w, q') := scan_ident q in lex_cons (word_token w) (lex_go f q' p)
          else if beq b x3f && negb (match p with [] => true | _ => false end) then
            match scan_param p with
            | Some (t, p') => lex_cons t (lex_go f r p')
            | None => LexErr LexInput
            end
          else if is_space b then lex_go f (trim_ahead q) p
          else match sym_get b with
               | Some s => lex_cons (TSym s) (lex_go f r p)
               | None => LexErr LexByte
               end
      end
  end.

(** ql/lex/mod.rs:346-354 [SecureLexer::new_with_segments(q, p).lex()] *)
Definition lex (q p : bytes) : lexres := lex_go (S (length q)) q p.

End Lex.
