(** Primary keys, literals and cells as they lie in memory: two words and a tag. The values they stand for are
    those of RowModel.v and DataModel.v. *)
From Coq Require Import List NArith Bool.
From Verif Require Import Bytes DataModel RowModel.
Import ListNotations.
Local Open Scope N_scope.

(** ** Memory *)
(** Blocks by their address. Simplified: a pointer always is the start of a block. *)
Definition mem : Type := N -> option bytes.
(** mem/word.rs:32 [ZERO_BLOCK]: the address of a static array without elements; any address but 0 *)
Definition zero_block : N := 1.
(** [slice::from_raw_parts] and reading through it (key.rs:199-205, lit.rs:209-216, cell.rs:175-178): the pointer
    must not be null even for an empty slice, and the bytes must lie inside one block. [None]: undefined behaviour. *)
Definition rd (m : mem) (p l : N) : option bytes :=
  if p =? 0 then None
  else if l =? 0 then Some []
  else match m p with Some b => if l <=? len b then Some (firstn (N.to_nat l) b) else None | None => None end.

(** ** Tags *)
(** data/tag.rs:146-152: the discriminants; the order of the derived [PartialOrd] *)
Definition tu_code (t : tuniq) : N :=
  match t with TuUInt => 0 | TuSInt => 1 | TuBin => 2 | TuStr => 3 | TuIllegal => 255 end.
(** derived [PartialEq], data/tag.rs:133-145 *)
Definition tu_eqb (a b : tuniq) : bool := tu_code a =? tu_code b.
(** key.rs:196, lit.rs:211: [tag >= TagUnique::Bin] *)
Definition tu_wide (t : tuniq) : bool := tu_code TuBin <=? tu_code t.

(** ** Keys, literals, cells *)
(** core/index/key.rs:47-50 with mem/mod.rs:62-65 (the two words) *)
Record key := mk_key { kt : tuniq; kq : N; kn : N }.
(** data/lit.rs:46-51. The way it is freed (dtc) is in OwnModel.v. *)
Record rlit := mk_rlit { lt : tsel; lq : N; ln : N }.
(** data/cell.rs:50-54, 442-447: the tag's selector, whether the cell is initialised, and the first two words of
    the payload. The list variant of the union is not in this file. *)
Record dcell := mk_dc { dt : tsel; di : bool; dq : N; dn : N }.

(** lit.rs:55-69, 230-235 and mem/mod.rs:71-76: a literal in one word *)
Definition lit_quad (t : tsel) (w : N) : rlit := mk_rlit t w zero_block.
(** lit.rs:170-197, 236-241: a literal with a pointer *)
Definition lit_wide (t : tsel) (p l : N) : rlit := mk_rlit t l p.
(** cell.rs:58-66, 80-88, 115-123, 140-148, 272-277 with word.rs:150-155, 313, 323, 333, 99-102 *)
Definition dc_quad (t : tsel) (w : N) : dcell := mk_dc t true w zero_block.
(** cell.rs:165-174, 204-213 with word.rs:360-363 *)
Definition dc_wide (t : tsel) (p l : N) : dcell := mk_dc t true l p.
(** cell.rs:354-363 with word.rs:95-97 (not overridden for [NativeQword]): both words are 0 *)
Definition dc_null : dcell := mk_dc TsBool false 0 0.

(** key.rs:136-155 *)
Definition key_of_dc (d : dcell) : key := mk_key (tsel_uniq (dt d)) (dq d) (dn d).
(** key.rs:157-166 *)
Definition key_of_qw (t : tuniq) (w : N) : key := mk_key t w zero_block.
(** key.rs:167-176 *)
Definition key_of_dual (t : tuniq) (l p : N) : key := mk_key t l p.
(** key.rs:177-182: the same words *)
Definition key_raw_clone (k : key) : key := mk_key (kt k) (kq k) (kn k).

(** key.rs:191-205: the bytes of a key; none for integers *)
Definition vlen (k : key) : N := kq k * (if tu_wide (kt k) then 1 else 0).
(** key.rs:199-205 *)
Definition vblock (m : mem) (k : key) : option bytes := rd m (kn k) (vlen k).
(** lit.rs:209-216 *)
Definition lit_vdata (m : mem) (l : rlit) : option bytes :=
  rd m (ln l) (lq l * (if tu_wide (tsel_uniq (lt l)) then 1 else 0)).

(** comparing two slices that may not be readable *)
Definition cmp_slices (a b : option bytes) : option bool :=
  match a, b with Some x, Some y => Some (bseq x y) | _, _ => None end.
(** key.rs:227-233 *)
Definition key_eq (m : mem) (a b : key) : option bool :=
  if tu_eqb (kt a) (kt b) && (kq a =? kq b) then cmp_slices (vblock m a) (vblock m b) else Some false.
(** key.rs:244-252 *)
Definition key_eq_lit (m : mem) (k : key) (l : rlit) : option bool :=
  if tu_eqb (kt k) (tsel_uniq (lt l)) && (kq k =? lq l) then cmp_slices (vblock m k) (lit_vdata m l) else Some false.

(** Calls to a [Hasher]: a discriminant, a length, bytes *)
Inductive hcall := HDisc (d : N) | HLen (n : N) | HRaw (b : bytes).
(** [Hash for [u8]] (standard library): the length, then the bytes *)
Definition slice_feed (b : bytes) : list hcall := [HLen (len b); HRaw b].
(** key.rs:237-242 *)
Definition key_feed (m : mem) (k : key) : option (list hcall) :=
  match vblock m k with Some b => Some (HDisc (tu_code (kt k)) :: slice_feed b) | None => None end.
(** lit.rs:309-314 *)
Definition lit_feed (m : mem) (l : rlit) : option (list hcall) :=
  match lit_vdata m l with Some b => Some (HDisc (tu_code (tsel_uniq (lt l))) :: slice_feed b) | None => None end.

(** cell.rs:525-533: a cell made of the words of a key *)
Definition vdc_pk (k : key) (t : tsel) : dcell := mk_dc t true (kq k) (kn k).
(** cell.rs:515-524: a cell made of the words of a literal *)
Definition vdc_lit (l : rlit) : dcell := mk_dc (lt l) true (lq l) (ln l).
(** cell.rs:67, 92, 127, 152, 175, 214: reading a cell. [None]: undefined behaviour, or a list. *)
Definition dc_value (m : mem) (d : dcell) : option cell :=
  if di d then
    match dt d with
    | TsBool => Some (CBool (dq d =? 1))
    | TsBin => option_map CBin (rd m (dn d) (dq d))
    | TsStr => option_map CStr (rd m (dn d) (dq d))
    | TsList => None
    | t => match tsel_qsel t with Some q => Some (CQw q (dq d)) | None => None end
    end
  else Some CNull.

(** key.rs:52-73 [Clone]: what it gives, with the memory. [p] is the address the allocator answers. *)
Inductive cres := COk (m : mem) (k : key) | CUb | CPanic.
(** key.rs:52-73, as above *)
Definition key_clone (m : mem) (p : N) (k : key) : cres :=
  match kt k with
  | TuSInt | TuUInt =>
      match rd m (kn k) (kq k) with
      | Some b => COk (fun a => if a =? p then Some b else m a) (mk_key (kt k) (kq k) p)
      | None => CUb
      end
  | TuBin | TuStr => COk m k
  | TuIllegal => CPanic
  end.
(** key.rs:215-225 with mem/unsafe_apis.rs:66-70 [Drop]: frees the block of a binary or string key unless it is empty.
    [None]: there is no block of this size at the address. *)
Definition key_drop (m : mem) (k : key) : option mem :=
  match kt k with
  | TuBin | TuStr =>
      if kn k =? 0 then None
      else if kq k =? 0 then Some m
      else match m (kn k) with
           | Some b => if len b =? kq k then Some (fun a => if a =? kn k then None else m a) else None
           | None => None
           end
  | _ => Some m
  end.
