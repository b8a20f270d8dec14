(** Text integers: printing ([mem/numbuf.rs]) and scanning ([mem/scanner.rs],
    [net/protocol/mod.rs]). All paths are below /repo/server/src/engine/. *)
From Coq Require Import Strings.String List Arith NArith ZArith Lia Bool.
From Verif Require Import Bytes.
Import ListNotations.
Local Open Scope N_scope.

(** the byte [b'\n'], used as terminator throughout mem/scanner.rs and net/protocol/ *)
Definition LF : byte := x0a.

(** Rust's [u8::is_ascii_digit], as used in mem/scanner.rs:313,371 and net/protocol/mod.rs:335 *)
Definition is_digit (b : byte) : bool := (48 <=? b2n b) && (b2n b <=? 57).

(** [b & 0x0F], mem/scanner.rs:322,380,388, net/protocol/mod.rs:336 *)
Definition low4 (b : byte) : N := N.land (b2n b) 15.

(* ------------------------------------------------------------------ *)
(** * Printing *)

(** mem/numbuf.rs:62-67 [DEC_DIGITS_LUT] *)
Definition dec_lut : bytes := Eval vm_compute in
  bstr (("0001020304050607080910111213141516171819" ++
   "2021222324252627282930313233343536373839" ++
   "4041424344454647484950515253545556575859" ++
   "6061626364656667686970717273747576777879" ++
   "8081828384858687888990919293949596979899")%string).

(** [ptr::copy_nonoverlapping(lut_ptr.offset(d), .., 2)], mem/numbuf.rs:93-94,104,113: the two
    bytes at offset [d] of the table; past its end the read is out of bounds, modelled by [None]. *)
Definition lut2 (d : N) : option bytes :=
  match nth_error dec_lut (N.to_nat d), nth_error dec_lut (N.to_nat d + 1) with
  | Some a, Some b => Some [a; b]
  | _, _ => None
  end.

(** The output buffer of mem/numbuf.rs:82-83 is filled from its end: the model keeps the part
    written so far, and how many bytes are still free ([curr_idx]). Writing below index 0 is out
    of bounds, modelled by [None]. *)
Definition put (free : N) (w out : bytes) : option (N * bytes) :=
  if len w <=? free then Some (free - len w, w ++ out) else None.

(** mem/numbuf.rs:86-96: the four-digits-at-a-time loop. [fuel] bounds the number of rounds, the
    proofs show it is never exhausted. *)
Fixpoint emit4 (fuel : nat) (n free : N) (out : bytes) : option (N * N * bytes) :=
  match fuel with
  | O => None
  | S f =>
      if 10000 <=? n then
        let rem := n mod 10000 in
        let n' := n / 10000 in
        let d1 := N.shiftl (rem / 100) 1 in
        let d2 := N.shiftl (rem mod 100) 1 in
        match lut2 d1, lut2 d2 with
        | Some a, Some b =>
            match put free (a ++ b) out with
            | Some (free', out') => emit4 f n' free' out'
            | None => None
            end
        | _, _ => None
        end
      else Some (n, free, out)
  end.

(** mem/numbuf.rs:99-105: two more digits when at least three are left *)
Definition emit2 (n free : N) (out : bytes) : option (N * N * bytes) :=
  if 100 <=? n then
    match lut2 (N.shiftl (n mod 100) 1) with
    | Some a => match put free a out with
                | Some (free', out') => Some (n / 100, free', out')
                | None => None
                end
    | None => None
    end
  else Some (n, free, out).

(** mem/numbuf.rs:106-114: the last one or two digits *)
Definition emit1 (n free : N) (out : bytes) : option (N * bytes) :=
  if n <? 10 then put free [n2b ((n mod 256 + 48) mod 256)] out
  else match lut2 (N.shiftl n 1) with
       | Some a => put free a out
       | None => None
       end.

(** The eight instances of [impl_int!], mem/numbuf.rs:126 *)
Inductive ity := IU8 | II8 | IU16 | II16 | IU32 | II32 | IU64 | II64.

(** buffer sizes, mem/numbuf.rs:126 *)
Definition ity_cap (t : ity) : N :=
  match t with
  | IU8 => 3 | II8 => 4 | IU16 => 5 | II16 => 6 | IU32 => 10 | II32 => 11 | IU64 => 20 | II64 => 20
  end.
(** the type each instance casts to, mem/numbuf.rs:126 ([as u32] / [as u64]) *)
Definition ity_cast (t : ity) : N :=
  match t with
  | IU64 | II64 => two64
  | _ => 4294967296
  end.
(** [mem::size_of::<Self>() >= 2], mem/numbuf.rs:86 *)
Definition ity_wide (t : ity) : bool := match t with IU8 | II8 => false | _ => true end.

(** mem/numbuf.rs:73-121 [Int::init]. [None] stands for an out-of-bounds access. The mutable
    buffer is replaced by the returned bytes. *)
Definition irep (t : ity) (v : Z) : option bytes :=
  let negative := (v <? 0)%Z in
  let cast := Z.to_N (v mod Z.of_N (ity_cast t)) in
  let n := if negative then ((ity_cast t - 1 - cast) + 1) mod ity_cast t else cast in
  match (if ity_wide t then emit4 8 n (ity_cap t) [] else Some (n, ity_cap t, [])) with
  | None => None
  | Some (n1, f1, o1) =>
      match emit2 n1 f1 o1 with
      | None => None
      | Some (n2, f2, o2) =>
          match emit1 n2 f2 o2 with
          | None => None
          | Some (f3, o3) =>
              if negative then match put f3 [x2d] o3 with Some (_, o4) => Some o4 | None => None end
              else Some o3
          end
      end
  end.

(** [IntegerRepr::scoped(n as u64, ..)] / [as_bytes(size as u64)] as used by net/protocol/mod.rs:209
    and core/dml/sel.rs:74,151,156,164. The [None] case (out of bounds) is shown impossible by
    [irep_spec] in NumProofs. *)
Definition dec_u64 (n : N) : bytes := match irep IU64 (Z.of_N n) with Some b => b | None => [] end.
(** [IntegerRepr::scoped(item.read_sint(), ..)], core/dml/sel.rs:152 *)
Definition dec_i64 (z : Z) : bytes := match irep II64 z with Some b => b | None => [] end.

(* ------------------------------------------------------------------ *)
(** * Scanning

    A [Scanner] (mem/scanner.rs:33-36) is a slice and a cursor. Every function below only looks
    forward from the cursor, so it is modelled on the unread rest of the buffer; the cursor is
    recovered as [length buffer - length rest]. [rounded_cursor] (mem/scanner.rs:169-171) computes
    [buffer_len - 1], which underflows for an empty buffer: callers that can see an empty buffer
    treat that case explicitly. *)

(** mem/scanner.rs:303-336 [try_next_ascii_u64_stop_at::<true>] with the closure of line 299:
    (okay, value, rest). *)
Fixpoint stop_at_lf (rest : bytes) (acc : N) : bool * N * bytes :=
  match rest with
  | [] => (true, acc, [])
  | b :: r =>
      if beq b LF then (true, acc, rest)
      else if two64 <=? acc * 10 then (false, acc, rest)
      else if two64 <=? acc * 10 + low4 b then (false, acc * 10, rest)
      else if is_digit b then stop_at_lf r (acc * 10 + low4 b)
      else (false, acc * 10 + low4 b, r)
  end.

(** mem/scanner.rs:208-216 [ScannerDecodeResult], with the rest after the terminator *)
Inductive sdres := SVal (v : N) (rest : bytes) | SMore | SErr.

(** mem/scanner.rs:237-268 [try_next_ascii_u64_lf_separated_with_result_or::<true>]: on [SMore] and
    [SErr] the cursor is restored, so no rest is returned. *)
Definition lf_u64 (rest : bytes) : sdres :=
  match stop_at_lf rest 0 with
  | (true, v, b :: r) => if beq b LF then SVal v r else SMore
  | (true, _, []) => SMore
  | (false, _, _) => SErr
  end.

(** net/protocol/mod.rs:318-322 [AccumlatorStatus] with the error case and the rest *)
Inductive accres := AccDone (v : N) (rest : bytes) | AccPend (v : N) | AccErr.

(** net/protocol/mod.rs:329-355 [scan_int]. A pending scan has consumed the whole buffer. *)
Fixpoint scan_int (rest : bytes) (acc : N) : accres :=
  match rest with
  | [] => AccPend acc
  | b :: r =>
      if beq b LF then AccDone acc r
      else if negb (is_digit b) then AccErr
      else if two64 <=? acc * 10 then AccErr
      else if two64 <=? acc * 10 + low4 b then AccErr
      else scan_int r (acc * 10 + low4 b)
  end.
