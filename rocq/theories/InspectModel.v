(** INSPECT: the answers of core/ddl_misc.rs and the description of a model, core/model/mod.rs. All
    paths are below /repo/server/src/engine/. *)
From Coq Require Import Strings.String List NArith Bool Arith.
From Verif Require Import Bytes DataModel CodecModel AMap NumModel GnsModel ParseModel DdlModel.
Import ListNotations.

(** a quote and a comma *)
Definition DQ : byte := x22.
(** a comma, core/query_meta and core/space.rs (texts of INSPECT) *)
Definition COMMA : byte := x2c.

(** the loops core/ddl_misc.rs:44-51, 60-67, 87-94: names in quotes, a comma unless the iterator is at
    its end. The order of a hash map is that of the association list, which is arbitrary. *)
Fixpoint names_text (l : list bytes) : bytes :=
  match l with
  | [] => []
  | x :: l' => DQ :: x ++ DQ :: (match l' with [] => [] | _ => [COMMA] end) ++ names_text l'
  end.

(** core/ddl_misc.rs:40-72 *)
Definition inspect_global (root : bool) (n : ns) : bytes :=
  bstr "{""spaces"":["%string ++ names_text (map fst (n_spaces n)) ++
  (if root then bstr "],""users"":["%string ++ names_text (map fst (n_users n)) else []) ++
  bstr "],""settings"":{}}"%string.

(** [TagSelector::name_str], data/tag.rs:26-34, 73-88: the name of the variant *)
Definition tag_name (t : tsel) : bytes :=
  bstr (match t with
  | TsBool => "Bool" | TsU8 => "UInt8" | TsU16 => "UInt16" | TsU32 => "UInt32" | TsU64 => "UInt64"
  | TsS8 => "SInt8" | TsS16 => "SInt16" | TsS32 => "SInt32" | TsS64 => "SInt64"
  | TsF32 => "Float32" | TsF64 => "Float64" | TsBin => "Binary" | TsStr => "String" | TsList => "List"
  end)%string.

(** core/model/mod.rs:159-170; a field has at least one layer *)
Definition type_text (ls : list tsel) : bytes :=
  repeat x5b (length ls - 1) ++ tag_name (last ls TsList) ++ repeat x5d (length ls - 1).
(** core/model/mod.rs:148-157 *)
Definition col_text (pk : bytes) (c : bytes * field) : bytes :=
  (if bseq pk (fst c) then x2a else if f_null (snd c) then x3f else x21) ::
  fst c ++ x3a :: type_text (f_layers (snd c)).
(** the loop core/model/mod.rs:146-174 *)
Fixpoint cols_text (pk : bytes) (l : fieldmap) : bytes :=
  match l with
  | [] => []
  | c :: l' => col_text pk c ++ (match l' with [] => [] | _ => [COMMA] end) ++ cols_text pk l'
  end.
(** [redescribe], core/model/mod.rs:144-177. The text is kept in [decl], which is computed when a model is
    made (198) and again when a mutator is done with it (499-503), so that it always is that of the
    current fields. *)
Definition describe (m : layout) : bytes := x7b :: cols_text (lo_pk m) (lo_fields m) ++ [x7d].

(** core/ddl_misc.rs:73-83. Rust's formatting of a [usize] is the decimal text without leading zeros, as
    that of [NumModel.dec_u64]. *)
Definition inspect_model (n : ns) (rows : ent -> N) (e : ent) : option bytes :=
  match aget ent_eqb e (n_models n) with
  | Some m => Some (bstr "{""decl"":"""%string ++ describe (md_lay m) ++ bstr """,""rows"":"%string ++ dec_u64 (rows e) ++
                    bstr ",""properties"":{}}"%string)
  | None => None
  end.

(** core/ddl_misc.rs:84-100 *)
Definition inspect_space (n : ns) (k : bytes) : option bytes :=
  match aget bseq k (n_spaces n) with
  | Some s => Some (bstr "{""models"":["%string ++ names_text (sp_models s) ++ bstr "]}}"%string)
  | None => None
  end.

(** [inspect], core/ddl_misc.rs:34-103; [None] is the error "not found" *)
Definition inspect_text (root : bool) (n : ns) (rows : ent -> N) (i : inspect_stmt) : option bytes :=
  match i with
  | InGlobal => Some (inspect_global root n)
  | InSpace k => inspect_space n k
  | InModel e => inspect_model n rows e
  end.
