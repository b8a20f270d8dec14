(** What a line typed at the shell means, written without the shell's functions. *)
From Coq Require Import Strings.String List NArith ZArith Bool.
From Verif Require Import Bytes NumModel NumProofs RowModel LexModel LexSpec Utf8 ShellModel.
Import ListNotations.
Local Open Scope N_scope.

(** the body of a string literal: the quote and the backslash are written after a backslash *)
Inductive esc (quote : byte) : bytes -> bytes -> Prop :=
| EscEnd : esc quote [] []
| EscPlain b s t : b <> quote -> b <> x5c -> esc quote s t -> esc quote (b :: s) (b :: t)
| EscBack s t : esc quote s t -> esc quote (x5c :: s) (x5c :: x5c :: t)
| EscQuote s t : esc quote s t -> esc quote (quote :: s) (x5c :: quote :: t).

(** a number ends at a blank, at a symbol or at the end of the line *)
Definition num_end (q : bytes) : Prop :=
  match q with [] => True | b :: _ => blank b \/ exists s, b = sym_char s /\ s <> SUnderscore /\ s <> SPeriod end.
(** the first byte of what follows is not this one *)
Definition not_next (b : byte) (q : bytes) : Prop := match q with [] => True | c :: _ => c <> b end.
Definition no_digit_next (q : bytes) : Prop := match q with [] => True | c :: _ => ~ (48 <= b2n c <= 57) end.

Section Typed.
Variable parse_f64 : bytes -> option N.
(** [typed full q r ts]: the line [q] begins with the tokens [ts] and goes on with [r]. With [full] it is
    the language one would type; without, the part of it the shell gets right: no minus sign, no
    binary, no backslash in strings, no line feed after an integer, no space after a float. *)
Inductive typed (full : bool) : bytes -> bytes -> list token -> Prop :=
| TyNil q : typed full q q []
| TyBlank b q r ts : blank b -> typed full q r ts -> typed full (b :: q) r ts
| TyWord w q r t ts : is_word w -> match q with [] => True | b :: _ => ~ wbyte b end -> word_tok w t ->
    typed full q r ts -> typed full (w ++ q) r (t :: ts)
| TySym s q r ts : ~ In s [SUnderscore; SQuoteS; SQuoteD; SAccent; SQuestion] -> (s = SSub -> full = true /\ no_digit_next q) ->
    typed full q r ts -> typed full (sym_char s :: q) r (TSym s :: ts)
| TyUInt ds q r ts : ds <> [] -> all_digits ds -> horner 0 ds < two64 -> num_end q -> (full = true \/ not_next x0a q) ->
    typed full q r ts -> typed full (ds ++ q) r (TLit (LUInt (horner 0 ds)) :: ts)
| TySInt ds q r ts : full = true -> ds <> [] -> all_digits ds -> horner 0 ds <= 9223372036854775808 -> num_end q ->
    typed full q r ts -> typed full (x2d :: ds ++ q) r (TLit (LSInt (Z.to_N (- Z.of_N (horner 0 ds) mod 18446744073709551616))) :: ts)
| TyFloat ds es w q r ts : ds <> [] -> all_digits ds -> horner 0 ds < two64 -> es <> [] -> all_digits es ->
    parse_f64 (ds ++ x2e :: es) = Some w -> num_end q -> (full = true \/ not_next x20 q) ->
    typed full q r ts -> typed full (ds ++ x2e :: es ++ q) r (TLit (LFloat w) :: ts)
| TyStr quote s body q r ts : quote = x22 \/ quote = x27 -> esc quote s body -> utf8_ok s = true -> (full = true \/ ~ In x5c body) ->
    typed full q r ts -> typed full (quote :: body ++ quote :: q) r (TLit (LStr s) :: ts)
| TyBin b q r ts : full = true -> ~ In x60 b -> typed full q r ts -> typed full (x60 :: b ++ x60 :: q) r (TLit (LBin b) :: ts).

(** what the shell makes of the body of a string literal: the backslash is kept, behind the character
    it escapes *)
Inductive kept (quote : byte) : bytes -> bytes -> Prop :=
| KeptEnd : kept quote [] []
| KeptPlain b t s : b <> quote -> b <> x5c -> kept quote t s -> kept quote (b :: t) (b :: s)
| KeptEsc e t s : e = x5c \/ e = quote -> kept quote t s -> kept quote (x5c :: e :: t) (e :: x5c :: s).

(** [arrives q r ts ts']: the line [q] begins with the tokens [ts] and goes on with [r], and for these
    tokens the server gets [ts'] *)
Inductive arrives : bytes -> bytes -> list token -> list token -> Prop :=
| ArNil q : arrives q q [] []
| ArBlank b q r ts ts' : blank b -> arrives q r ts ts' -> arrives (b :: q) r ts ts'
| ArWord w q r t ts ts' : is_word w -> match q with [] => True | b :: _ => ~ wbyte b end -> word_tok w t ->
    arrives q r ts ts' -> arrives (w ++ q) r (t :: ts) (t :: ts')
| ArSym s q r ts ts' : ~ In s [SUnderscore; SQuoteS; SQuoteD; SAccent; SQuestion; SSub] ->
    arrives q r ts ts' -> arrives (sym_char s :: q) r (TSym s :: ts) (TSym s :: ts')
| ArUInt ds q r ts ts' : ds <> [] -> all_digits ds -> horner 0 ds < two64 -> num_end q -> not_next x0a q ->
    arrives q r ts ts' -> arrives (ds ++ q) r (TLit (LUInt (horner 0 ds)) :: ts) (TLit (LUInt (horner 0 ds)) :: ts')
| ArFloat ds es w q r ts ts' : ds <> [] -> all_digits ds -> horner 0 ds < two64 -> es <> [] -> all_digits es ->
    parse_f64 (ds ++ x2e :: es) = Some w -> num_end q -> not_next x20 q ->
    arrives q r ts ts' -> arrives (ds ++ x2e :: es ++ q) r (TLit (LFloat w) :: ts) (TLit (LFloat w) :: ts')
| ArStr quote s s' body q r ts ts' : quote = x22 \/ quote = x27 -> esc quote s body -> utf8_ok s = true -> kept quote body s' ->
    arrives q r ts ts' -> arrives (quote :: body ++ quote :: q) r (TLit (LStr s) :: ts) (TLit (LStr s') :: ts')
| ArBin b q r ts ts' : ~ In x60 b ->
    arrives q r ts ts' -> arrives (x60 :: b ++ x60 :: q) r (TLit (LBin b) :: ts) (TLit (LBin (b ++ [x60])) :: ts').
End Typed.

(** the values the client library is handed; the bytes it sends for them are [encodes] of LexSpec.v;
    [fmt] is how it prints a float *)
Definition value_of (fmt : N -> bytes) (i : item) : pval :=
  match i with
  | IUInt n => PUInt n | ISInt z => PSInt z | IFloat w => PFloat (fmt w) | IStr s => PStr s | IBin b => PBin b
  end.
(** the line reaches the server as these tokens: the parameters can be sent, and however they are sent
    the server's lexer gets these tokens *)
Definition sent (parse_f64 : bytes -> option N) (fmt : N -> bytes) (r : shres) (ts : list token) : Prop :=
  exists k query ps, r = ShOk k query ps /\ (exists es, Forall2 (fun i e => encodes (value_of fmt i) e) ps es) /\
    forall es, Forall2 (fun i e => encodes (value_of fmt i) e) ps es -> lex utf8_ok parse_f64 query (concat es) = LexOk ts.
(** floats survive being printed and read *)
Definition fmt_ok (parse_f64 : bytes -> option N) (fmt : N -> bytes) : Prop :=
  forall s w, parse_f64 s = Some w -> fmt w <> [] /\ ~ In LF (fmt w) /\ utf8_ok (fmt w) = true /\ parse_f64 (fmt w) = Some w.
