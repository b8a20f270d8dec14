(** Storage encoding of cells, dictionaries, field maps and layouts:
    storage/common_encoding/r1/{mod,obj,map}.rs. *)
From Coq Require Import List NArith Lia Bool.
From Verif Require Import Bytes DataModel.
Import ListNotations.
Local Open Scope N_scope.

(** Outcome of a decoder. [RUb] is a read outside the buffer: [BufferedScanner]'s
    [next_byte]/[next_chunk]/[next_chunk_variable] (mem/scanner.rs:403-424) are unchecked.
    [RFuel] means that the model's recursion bound was hit; it is proved unreachable. *)
Inductive res (A : Type) := ROk (a : A) | RErr | RUb | RFuel.
Arguments ROk {A} a. Arguments RErr {A}. Arguments RUb {A}. Arguments RFuel {A}.

(** the [?] operator on the decoders' results (r1/mod.rs, obj.rs, map.rs) *)
Definition rbind {A B} (r : res A) (f : A -> res B) : res B :=
  match r with ROk a => f a | RErr => RErr | RUb => RUb | RFuel => RFuel end.
Notation "'let*' x := r 'in' f" := (rbind r (fun x => f))
  (at level 200, x pattern, r at level 100, f at level 200).

(** The two implementations of [DataSource] used by the current storage:
    [SrcScan] = [BufferedScanner], storage/common_encoding/r1/mod.rs:57-74 (unchecked reads);
    [SrcRead] = [TrackedReaderContext], storage/v2/impls/mdl_journal.rs:711-731 (checked reads; the
    allocation of a declared block length before reading, line 727, is not modelled). *)
Inductive source := SrcScan | SrcRead.

(** a read past the end of the input: unchecked for [BufferedScanner] (mem/scanner.rs:403-424), an
    error for the tracked reader (storage/common/sdss/impls/sdss_r1/rw.rs, [read_exact]) *)
Definition oob {A} (s : source) : res A := match s with SrcScan => RUb | SrcRead => RErr end.

(** [read_next_byte], r1/mod.rs:62-64 / mdl_journal.rs:717-719 *)
Definition rd_byte (s : source) (l : bytes) : res (byte * bytes) :=
  match l with [] => oob s | b :: l' => ROk (b, l') end.

(** [read_next_u64_le], r1/mod.rs:68-70 / mdl_journal.rs:723-725 *)
Definition rd_u64 (s : source) (l : bytes) : res (N * bytes) :=
  match take 8 l with None => oob s | Some (a, l') => ROk (le_dec a, l') end.

(** [read_next_variable_block], r1/mod.rs:71-73 / mdl_journal.rs:726-730 *)
Definition rd_block (s : source) (n : N) (l : bytes) : res (bytes * bytes) :=
  match takeN n l with None => oob s | Some (a, l') => ROk (a, l') end.

(** [has_remaining], r1/mod.rs:59-61 / mdl_journal.rs:714-716 *)
Definition has_left (n : N) (l : bytes) : bool := n <=? len l.

(** ** Cells: r1/obj.rs:52-244 *)

(** [encode_tag], obj.rs:113-115 *)
Definition enc_tag (c : cell) : byte :=
  n2b ((tsel_code (cell_sel c) + 1) * (if cell_init c then 1 else 0)).

(** [encode_cell], obj.rs:116-140, together with [encode], obj.rs:109-112, for list items *)
Fixpoint enc_cell (c : cell) : bytes :=
  match c with
  | CNull => []
  | CBool b => [if b then x01 else x00]
  | CQw _ w => u64_le w
  | CBin b => u64_le (len b) ++ b
  | CStr b => u64_le (len b) ++ b
  | CList l => u64_le (N.of_nat (List.length l))
               ++ List.concat (map (fun x => enc_tag x :: enc_cell x) l)
  end.

(** [encode], obj.rs:109-112 *)
Definition enc_full (c : cell) : bytes := enc_tag c :: enc_cell c.

(** [StorageCellTypeID::try_from_raw]/[is_valid], obj.rs:77-99: maximum discriminant is 0x0F *)
Definition dscr_valid (d : N) : bool := d <=? 15.

(** [expect_atleast], obj.rs:105-107 *)
Definition expect_atleast (d : N) : N := match d with 0 => 0 | 1 => 1 | _ => 8 end.

Section Dec.
(** [utf8] stands for [String::from_utf8]'s validity check. *)
Variable utf8 : bytes -> bool.
Variable src : source.

(** [decode_element::<Datacell,_>], obj.rs:180-243, and its list loop (lines 223-240). [n] is
    [len - l.len()], the number of items still missing. A [Dict] tag is an error here
    ([CAN_YIELD_DICT] is false, lines 188-194). *)
Fixpoint dec_elem (fuel : nat) (dscr : N) (l : bytes) {struct fuel} : res (cell * bytes) :=
  match fuel with
  | O => RFuel
  | S f =>
    if dscr =? 15 then RErr else
    if dscr =? 0 then ROk (CNull, l) else
    match tsel_of_code (dscr - 1) with
    | None => RErr (* unreachable: callers check [dscr_valid] *)
    | Some TsBool =>
        let* (b, l1) := rd_byte src l in
        if 1 <? b2n b then RErr else ROk (CBool (b2n b =? 1), l1)
    | Some TsBin =>
        let* (n, l1) := rd_u64 src l in
        let* (b, l2) := rd_block src n l1 in
        ROk (CBin b, l2)
    | Some TsStr =>
        let* (n, l1) := rd_u64 src l in
        let* (b, l2) := rd_block src n l1 in
        if utf8 b then ROk (CStr b, l2) else RErr
    | Some TsList =>
        let* (n, l1) := rd_u64 src l in
        let* (items, l2) := dec_items f n l1 in
        ROk (CList items, l2)
    | Some s =>
        match tsel_qsel s with
        | None => RErr (* unreachable: the remaining selectors are word-sized *)
        | Some q =>
            let* (w, l1) := rd_u64 src l in
            ROk (CQw q w, l1)
        end
    end
  end
with dec_items (fuel : nat) (n : N) (l : bytes) {struct fuel} : res (list cell * bytes) :=
  match fuel with
  | O => RFuel
  | S f =>
    if n =? 0 then ROk ([], l) else
    match l with
    | [] => RErr (* loop ends early, obj.rs:226 and 236-238 *)
    | b :: l1 =>
        let d := b2n b in
        if negb (dscr_valid d) then RErr else
        if negb (has_left (expect_atleast d) l1) then RErr else
        let* (c, l2) := dec_elem f d l1 in
        let* (cs, l3) := dec_items f (n - 1) l2 in
        ROk (c :: cs, l3)
    end
  end.

(** [decode_element::<Datacell,_>] with enough recursion for every input *)
Definition dec_cell (dscr : N) (l : bytes) : res (cell * bytes) :=
  dec_elem (S (List.length l)) dscr l.

End Dec.

(** ** Generic dictionaries: data/dict.rs [DictGeneric], r1/map.rs *)

(** data/dict.rs [DictEntryGeneric] and [DictGeneric] (a HashMap). The model lists the entries in
    the (arbitrary) iteration order of the HashMap. *)
Inductive dentry :=
| DData (c : cell)
| DMap (d : list (bytes * dentry)).
(** data/dict.rs [DictGeneric] *)
Definition dict := list (bytes * dentry).

Section DentryInd.
  Variable P : dentry -> Prop.
  Hypothesis Hdata : forall c, P (DData c).
  Hypothesis Hmap : forall d, Forall (fun kv => P (snd kv)) d -> P (DMap d).
  (** induction principle of Coq for [dentry], without a counterpart in the code *)
  Fixpoint dentry_ind' (e : dentry) : P e :=
    match e with
    | DData c => Hdata c
    | DMap d =>
        Hmap d ((fix go (d : list (bytes * dentry)) : Forall (fun kv => P (snd kv)) d :=
                   match d with
                   | [] => Forall_nil _
                   | kv :: d' => Forall_cons kv (dentry_ind' (snd kv)) (go d')
                   end) d)
    end.
End DentryInd.

(** [encode_entry_meta] (map.rs:172-174) followed by [encode_entry_data] (map.rs:175-188);
    nested maps use [default_full_enc] (r1/mod.rs:122-125) = entry count (map.rs:65-67) + entries
    (map.rs:71-81). *)
Fixpoint enc_entry (k : bytes) (e : dentry) : bytes :=
  u64_le (len k) ++
  match e with
  | DData c => enc_tag c :: k ++ enc_cell c
  | DMap d => x0f :: k ++ u64_le (N.of_nat (List.length d))
                       ++ List.concat (map (fun kv => enc_entry (fst kv) (snd kv)) d)
  end.

(** [PersistMapImpl::<GenericDictSpec>::obj_enc], map.rs:71-81 *)
Definition enc_dict_obj (d : dict) : bytes :=
  List.concat (map (fun kv => enc_entry (fst kv) (snd kv)) d).

(** [default_full_enc] for [PersistMapImpl<GenericDictSpec>], r1/mod.rs:122-125, map.rs:65-67 *)
Definition enc_dict_full (d : dict) : bytes :=
  u64_le (N.of_nat (List.length d)) ++ enc_dict_obj d.

(** [HashMap::contains_key], used by [map_insert] (r1/mod.rs:159-161) *)
Fixpoint dict_mem {V} (k : bytes) (d : list (bytes * V)) : bool :=
  match d with [] => false | (k', _) :: d' => bseq k k' || dict_mem k d' end.

Section DecDict.
Variable utf8 : bytes -> bool.

(** [obj_dec] of [PersistMapImpl<GenericDictSpec>], map.rs:82-134, and [default_full_dec]
    (r1/mod.rs:127-142) for nested maps. [acc] is the dictionary built so far. The entry-metadata
    pretest is evaluated once before the loop (map.rs:87-88). The key is decoded before the value
    and both are decoded before either failure is reported (map.rs:112-122). *)
Fixpoint dec_entries (fuel : nat) (pretest : bool) (size : N) (acc : dict) (l : bytes) {struct fuel}
  : res (dict * bytes) :=
  match fuel with
  | O => RFuel
  | S f =>
    if pretest && negb (N.of_nat (List.length acc) =? size) then
      match take 9 l with
      | None => RUb
      | Some (md, l1) =>
        let klen := le_dec (firstn 8 md) in
        let d := le_dec (skipn 8 md) in
        if negb (dscr_valid d && has_left (expect_atleast d) l1) then RErr else
        let* (k, l2) := rd_block SrcScan klen l1 in
        match
          (if d =? 15 then
             let* (m, l3) := dec_dict_full_f f l2 in ROk (DMap m, l3)
           else
             let* (c, l3) := dec_cell utf8 SrcScan d l2 in ROk (DData c, l3))
        with
        | ROk (v, l3) =>
            if negb (utf8 k) then RErr else
            if dict_mem k acc then RErr else
            dec_entries f pretest size (acc ++ [(k, v)]) l3
        | RErr => RErr | RUb => RUb | RFuel => RFuel
        end
      end
    else if N.of_nat (List.length acc) =? size then ROk (acc, l) else RErr
  end
with dec_dict_full_f (fuel : nat) (l : bytes) {struct fuel} : res (dict * bytes) :=
  match fuel with
  | O => RFuel
  | S f =>
    match take 8 l with
    | None => RErr
    | Some (a, l1) => dec_entries f (has_left 9 l1) (le_dec a) [] l1
    end
  end.

(** [obj_dec] given the size from the metadata, map.rs:82-134 *)
Definition dec_dict_obj (size : N) (l : bytes) : res (dict * bytes) :=
  dec_entries (S (List.length l)) (has_left 9 l) size [] l.

(** [default_full_dec], r1/mod.rs:127-142 *)
Definition dec_dict_full (l : bytes) : res (dict * bytes) :=
  dec_dict_full_f (S (List.length l)) l.

(** ** Fields and model layouts: r1/obj.rs:246-466, r1/map.rs:241-382 *)

(** core/model/mod.rs [Field]: nullability and type layers, outermost first. A [Layer] is its tag
    ([Layer::new_empty_props]). *)
Record field := mk_field { f_null : bool; f_layers : list tsel }.

(** [LayerRef::default_full_enc]: metadata (obj.rs:280-283), empty object (287) *)
Definition enc_layer (s : tsel) : bytes := u64_le (tsel_code s) ++ u64_le 0.

(** [FieldRef::obj_enc] / [encode_entry_val], obj.rs:348-352, map.rs:339-343 *)
Definition enc_layers (ls : list tsel) : bytes := List.concat (map enc_layer ls).

(** [FieldMapSpec::encode_entry_meta] + key + value, map.rs:327-343 via 71-81 *)
Definition enc_field_entry (kv : bytes * field) : bytes :=
  let '(k, f) := kv in
  u64_le (len k) ++ u64_le 0 ++ u64_le (N.of_nat (List.length (f_layers f)))
    ++ [if f_null f then x01 else x00] ++ k ++ enc_layers (f_layers f).

(** core/model/mod.rs [Fields] (an [IndexSTSeqCns]) in its iteration order *)
Definition fieldmap := list (bytes * field).

(** [PersistMapImpl<FieldMapSpec>::obj_enc], map.rs:71-81; iteration is in the order of the
    ordered map (map.rs:296-310) *)
Definition enc_fields (m : fieldmap) : bytes := List.concat (map enc_field_entry m).

(** [FieldRef::obj_dec]'s loop, obj.rs:359-371: [n] is [layer_c - layers.len()]; stops when the
    input is at EOF or shorter than a layer, when all layers were read, or after a non-list layer. *)
Fixpoint dec_layers (fuel : nat) (n : N) (l : bytes) : res (list tsel * bool * bytes) :=
  match fuel with
  | O => RFuel
  | S f =>
    if (len l =? 0) || (n =? 0) || negb (has_left 16 l) then ROk ([], false, l) else
    match take 8 l with
    | None => RUb
    | Some (a, l1) =>
      match take 8 l1 with
      | None => RUb
      | Some (b, l2) =>
        if (13 <? le_dec a) || negb (le_dec b =? 0) then RErr else
        match tsel_of_code (le_dec a) with
        | None => RErr
        | Some s =>
          if negb (tclass_eqb (tsel_class s) TcList) then ROk ([s], true, l2)
          else
            let* (ss, fin, l3) := dec_layers f (n - 1) l2 in
            ROk (s :: ss, fin, l3)
        end
      end
    end
  end.

(** [FieldRef::obj_dec], obj.rs:353-378 *)
Definition dec_field (prop_c layer_c null : N) (l : bytes) : res (field * bytes) :=
  let* (ss, fin, l1) := dec_layers (S (List.length l)) layer_c l in
  if (N.of_nat (List.length ss) =? layer_c) && (null <=? 1) && (prop_c =? 0) && fin
  then ROk (mk_field (null =? 1) ss, l1)
  else RErr.

(** [PersistMapImpl<FieldMapSpec>::obj_dec], map.rs:82-134 with map.rs:344-381 *)
Fixpoint dec_fields_f (fuel : nat) (pretest : bool) (size : N) (acc : fieldmap) (l : bytes)
  : res (fieldmap * bytes) :=
  match fuel with
  | O => RFuel
  | S f =>
    if pretest && negb (N.of_nat (List.length acc) =? size) then
      match take 25 l with
      | None => RUb
      | Some (md, l1) =>
        let klen := le_dec (firstn 8 md) in
        let prop_c := le_dec (firstn 8 (skipn 8 md)) in
        let layer_c := le_dec (firstn 8 (skipn 16 md)) in
        let null := le_dec (skipn 24 md) in
        if negb (has_left klen l1) then RErr else
        let* (k, l2) := rd_block SrcScan klen l1 in
        match dec_field prop_c layer_c null l2 with
        | ROk (v, l3) =>
            if negb (utf8 k) then RErr else
            if dict_mem k acc then RErr else
            dec_fields_f f pretest size (acc ++ [(k, v)]) l3
        | RErr => RErr | RUb => RUb | RFuel => RFuel
        end
      end
    else if N.of_nat (List.length acc) =? size then ROk (acc, l) else RErr
  end.

(** [PersistMapImpl<FieldMapSpec>::obj_dec], map.rs:82-134, with enough recursion *)
Definition dec_fields (size : N) (l : bytes) : res (fieldmap * bytes) :=
  dec_fields_f (S (List.length l)) (has_left 25 l) size [] l.

(** The persisted part of a model definition (core/model/mod.rs [ModelData]): uuid (as its 128-bit
    little-endian number), primary key name and type, fields in declaration order. *)
Record layout := mk_layout {
  lo_uuid : N;
  lo_pk : bytes;
  lo_ptag : tsel;
  lo_fields : fieldmap
}.

(** [ModelLayoutRef::meta_enc], obj.rs:423-428 *)
Definition enc_layout_meta (m : layout) : bytes :=
  u128_le (lo_uuid m) ++ u64_le (len (lo_pk m)) ++ u64_le (tsel_code (lo_ptag m))
    ++ u64_le (N.of_nat (List.length (lo_fields m))).
(** [ModelLayoutRef::obj_enc], obj.rs:437-443 *)
Definition enc_layout_obj (m : layout) : bytes := lo_pk m ++ enc_fields (lo_fields m).
(** [ModelLayoutRef::default_full_enc], r1/mod.rs:122-125 *)
Definition enc_layout (m : layout) : bytes := enc_layout_meta m ++ enc_layout_obj m.

(** the metadata block [uuid][pk len][pk tag][field count] of [ModelLayoutRef], obj.rs:381-406 *)
Record layout_md := mk_layout_md { lm_uuid : N; lm_pklen : N; lm_ptag : N; lm_fieldc : N }.

(** [ModelLayoutRef::meta_dec], obj.rs:429-436 (caller has checked that 40 bytes remain) *)
Definition dec_layout_meta (l : bytes) : res (layout_md * bytes) :=
  match take 16 l with
  | None => RUb
  | Some (u, l1) =>
    let* (a, l2) := rd_u64 SrcScan l1 in
    let* (b, l3) := rd_u64 SrcScan l2 in
    let* (c, l4) := rd_u64 SrcScan l3 in
    ROk (mk_layout_md (le_dec u) a b c, l4)
  end.

(** [ModelLayoutRef::obj_dec], obj.rs:444-465 *)
Definition dec_layout_obj (md : layout_md) (l : bytes) : res (layout * bytes) :=
  let* (k, l1) := rd_block SrcScan (lm_pklen md) l in
  if negb (utf8 k) then RErr else
  let* (fm, l2) := dec_fields (lm_fieldc md) l1 in
  match tsel_of_code (lm_ptag md) with
  | None => RErr
  | Some t => ROk (mk_layout (lm_uuid md) k t fm, l2)
  end.

(** [ModelLayoutRef::default_full_dec], r1/mod.rs:127-142 with obj.rs:416-422 *)
Definition dec_layout (l : bytes) : res (layout * bytes) :=
  if negb (has_left 40 l) then RErr else
  let* (md, l1) := dec_layout_meta l in
  if negb (has_left (lm_pklen md) l1) then RErr else dec_layout_obj md l1.

(** Persisted part of a space: uuid and properties (core/space.rs [Space]); obj.rs:468-521 *)
Record space_layout := mk_space_layout { sl_uuid : N; sl_props : dict }.

(** [SpaceLayoutRef::default_full_enc], obj.rs:495-509 *)
Definition enc_space (s : space_layout) : bytes :=
  u128_le (sl_uuid s) ++ u64_le (N.of_nat (List.length (sl_props s))) ++ enc_dict_obj (sl_props s).

(** [SpaceLayoutRef::default_full_dec], r1/mod.rs:127-142 with obj.rs:488-520 *)
Definition dec_space (l : bytes) : res (space_layout * bytes) :=
  if negb (has_left 24 l) then RErr else
  match take 16 l with
  | None => RUb
  | Some (u, l1) =>
    let* (n, l2) := rd_u64 SrcScan l1 in
    let* (d, l3) := dec_dict_obj n l2 in
    ROk (mk_space_layout (le_dec u) d, l3)
  end.

End DecDict.
