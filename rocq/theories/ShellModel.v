(** The interactive shell: how a typed line becomes a query with parameters. All paths are below
    /repo/cli/src/. *)
From Coq Require Import Strings.String List NArith ZArith Bool.
From Verif Require Import Bytes NumModel LexModel Utf8.
Import ListNotations.
Local Open Scope N_scope.

(** [Item], query.rs:84-91. A float is kept as the bits of the number. *)
Inductive item := IUInt (n : N) | ISInt (z : Z) | IFloat (w : N) | IStr (s : bytes) | IBin (b : bytes).

(** [CliError::QueryError] with its messages, query.rs:179, 193, 204, 217, 221, 245, 261, 281, 294, 324;
    [ShFuel] is only in the model, the proofs show it never happens *)
Inductive shfail := FUtf8 | FStrEnd | FEscape | FStrUtf8 | FFloat | FSInt | FUIntBig | FUInt | FBinEnd | ShFuel.

(** Rust's [u8::is_ascii_punctuation] *)
Definition is_punct (b : byte) : bool :=
  let n := b2n b in
  ((33 <=? n) && (n <=? 47)) || ((58 <=? n) && (n <=? 64)) || ((91 <=? n) && (n <=? 96)) || ((123 <=? n) && (n <=? 126)).

(** [read_string], query.rs:182-223, after the opening quote: the bytes collected and the rest. After an
    escape the loop goes on to line 210 with [b] still the backslash. *)
Fixpoint read_string (quote : byte) (q : bytes) : (bytes * bytes) + shfail :=
  match q with
  | [] => inr FStrEnd
  | b :: r =>
      if beq b x5c then
        match r with
        | [] => inr FStrEnd
        | e :: r' =>
            if beq e x5c || beq e quote then
              match read_string quote r' with
              | inl (s, t) => inl (e :: b :: s, t)
              | inr f => inr f
              end
            else inr FEscape
        end
      else if beq b quote then inl ([], r)
      else match read_string quote r with inl (s, t) => inl (b :: s, t) | inr f => inr f end
  end.

(** [read_ident], query.rs:224-238: [scan_ident] of LexModel.v reads the same bytes *)
(** [read_until_number_escape], query.rs:303-311: the bytes passed over and the rest *)
Fixpoint until_escape (q : bytes) : bytes * bytes :=
  match q with
  | [] => ([], [])
  | b :: r => if beq b x0a || beq b x09 || is_punct b then ([], q)
              else let '(a, t) := until_escape r in (b :: a, t)
  end.

(** Rust's [i64::from_str] on text: an optional sign and at least one digit, within the range *)
Fixpoint digits_val (neg : bool) (s : bytes) (acc : Z) : option Z :=
  match s with
  | [] => Some acc
  | b :: r =>
      if is_digit b then
        let v := if neg then (acc * 10 - Z.of_N (low4 b))%Z else (acc * 10 + Z.of_N (low4 b))%Z in
        if i64_ok v then digits_val neg r v else None
      else None
  end.
(** [i64::from_str], used at query.rs:130-300 *)
Definition parse_i64 (s : bytes) : option Z :=
  match s with
  | [] => None
  | b :: r =>
      if beq b x2d then match r with [] => None | _ => digits_val true r 0%Z end
      else if beq b x2b then match r with [] => None | _ => digits_val false r 0%Z end
      else digits_val false s 0%Z
  end.

Section Shell.
(** [f64::from_str] *)
Variable parse_f64 : bytes -> option N.

(** [read_float], query.rs:239-251: [pre] are the bytes from the number's start through the point *)
Definition read_float (pre q : bytes) : (item * bytes) + shfail :=
  let '(a, r) := until_escape q in
  if utf8_ok (pre ++ a) then
    match parse_f64 (pre ++ a) with Some w => inl (IFloat w, r) | None => inr FFloat end
  else inr FFloat.

(** [read_signed_integer], query.rs:252-267: [q] begins with the minus sign, and so does the scan *)
Definition read_sint (q : bytes) : (item * bytes) + shfail :=
  let '(a, r) := until_escape q in
  if utf8_ok a then match parse_i64 a with Some z => inl (ISInt z, r) | None => inr FSInt end else inr FSInt.

(** [read_unsigned_integer], query.rs:268-302: [pre] are the digits read, [v] their value *)
Fixpoint read_uint (pre : bytes) (v : N) (q : bytes) : (item * bytes) + shfail :=
  match q with
  | [] => inl (IUInt v, [])
  | b :: r =>
      if is_digit b then
        let v' := v * 10 + low4 b in
        if v' <? two64 then read_uint (pre ++ [b]) v' r else inr FUIntBig
      else if beq b x2e then read_float (pre ++ [b]) r
      else if beq b x20 || beq b x09 || is_punct b then inl (IUInt v, q)
      else inr FUInt
  end.

(** [read_binary], query.rs:312-325: the closing accent is part of the value ([self.i] is past it) *)
Fixpoint read_binary (q : bytes) : (bytes * bytes) + shfail :=
  match q with
  | [] => inr FBinEnd
  | b :: r => if beq b x60 then inl ([b], r)
              else match read_binary r with inl (s, t) => inl (b :: s, t) | inr f => inr f end
  end.

(** the loop of [parameterize], query.rs:130-149: the query text and the parameters. [fuel] bounds the
    number of rounds. *)
Definition sh_cons (t : bytes) (ps : list item) (r : (bytes * list item) + shfail) : (bytes * list item) + shfail :=
  match r with inl (q, l) => inl (t ++ q, ps ++ l) | inr f => inr f end.
(** query.rs:130-149, as above *)
Fixpoint sh_loop (fuel : nat) (q : bytes) : (bytes * list item) + shfail :=
  match fuel with
  | O => inr ShFuel
  | S f =>
      match q with
      | [] => inl ([], [])
      | b :: r =>
          if word_start b then let '(w, t) := scan_ident q in sh_cons w [] (sh_loop f t)
          else if is_digit b then
            match read_uint [] 0 q with inl (i, t) => sh_cons [x3f] [i] (sh_loop f t) | inr e => inr e end
          else if beq b x2d then
            match read_sint q with inl (i, t) => sh_cons [x3f] [i] (sh_loop f t) | inr e => inr e end
          else if beq b x22 || beq b x27 then
            match read_string b r with
            | inl (s, t) => if utf8_ok s then sh_cons [x3f] [IStr s] (sh_loop f t) else inr FStrUtf8
            | inr e => inr e
            end
          else if beq b x60 then
            match read_binary r with inl (s, t) => sh_cons [x3f] [IBin s] (sh_loop f t) | inr e => inr e end
          else sh_cons [b] [] (sh_loop f r)
      end
  end.

(** [ExecKind], query.rs:112-118 *)
Inductive ekind := KStandard | KUseSpace (s : bytes) | KUseNull | KSpecial.
(** what a line is made into, query.rs:112-149 *)
Inductive shres := ShOk (k : ekind) (query : bytes) (ps : list item) | ShErr (f : shfail) | ShPanic.

(** Rust's [str::split_ascii_whitespace]: the words between blanks (space, tab, LF, FF, CR) *)
Definition ascii_ws (b : byte) : bool := beq b x20 || beq b x09 || beq b x0a || beq b x0c || beq b x0d.
(** [split_ascii_whitespace] of the standard library, as above *)
Fixpoint split_ws (q : bytes) (cur : bytes) : list bytes :=
  match q with
  | [] => match cur with [] => [] | _ => [cur] end
  | b :: r => if ascii_ws b then match cur with [] => split_ws r [] | _ => cur :: split_ws r [] end
              else split_ws r (cur ++ [b])
  end.

(** [str::is_char_boundary] at 8 for longer strings: the byte there continues no character *)
Definition boundary8 (q : bytes) : bool := match nth_error q 8 with Some b => negb (cont b) | None => true end.

(** [parameterize], query.rs:129-181; the slice of line 160 panics inside a character *)
Definition parameterize (line : bytes) : shres :=
  match sh_loop (S (length line)) line with
  | inr f => ShErr f
  | inl (q, ps) =>
      if negb (utf8_ok q) then ShErr FUtf8 else
      if eq_ci q (bstr "use null"%string) then ShOk KUseNull q ps else
      if (8 <? len q) && negb (boundary8 q) then ShPanic else
      if (8 <? len q) && eq_ci (firstn 8 q) (bstr "inspect "%string) then ShOk KSpecial q ps else
      match split_ws q [] with
      | u :: n :: _ =>
          if eq_ci u (bstr "use"%string) && negb (eq_ci n (bstr "$current"%string))
          then ShOk (KUseSpace n) q ps else ShOk KStandard q ps
      | _ => ShOk KStandard q ps
      end
  end.
End Shell.
