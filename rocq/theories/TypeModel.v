(** Field types: the type-name table and layer parsing, core/model/mod.rs. *)
From Coq Require Import Strings.String List NArith Bool.
From Verif Require Import Bytes DataModel CodecModel.
Import ListNotations.
Local Open Scope N_scope.

(** core/model/mod.rs:509 *)
Definition ty_g : list N := [0; 13; 12; 5; 6; 4; 3; 6; 1; 10; 4; 5; 7; 5; 5].
(** core/model/mod.rs:510 *)
Definition ty_s1 : list N := [13; 9; 4; 14; 2; 4; 7].
(** core/model/mod.rs:511 *)
Definition ty_s2 : list N := [12; 8; 2; 6; 4; 9; 9].

(** core/model/mod.rs:513-528 *)
Definition ty_lut : list (bytes * tsel) :=
  [ (bstr "bool"%string, TsBool);
    (bstr "uint8"%string, TsU8); (bstr "uint16"%string, TsU16); (bstr "uint32"%string, TsU32); (bstr "uint64"%string, TsU64);
    (bstr "sint8"%string, TsS8); (bstr "sint16"%string, TsS16); (bstr "sint32"%string, TsS32); (bstr "sint64"%string, TsS64);
    (bstr "float32"%string, TsF32); (bstr "float64"%string, TsF64);
    (bstr "binary"%string, TsBin); (bstr "string"%string, TsStr); (bstr "list"%string, TsList) ].

(** core/model/mod.rs:703-711 [hf]: 16-bit arithmetic (wraps in release builds); [i] is the index
    modulo 7, kept modulo 7 throughout *)
Fixpoint ty_hf_go (v : list N) (key : bytes) (i : nat) (tot : N) : N :=
  match key with
  | [] => tot mod 15
  | b :: key' =>
      ty_hf_go v key' (if Nat.eqb i 6 then 0%nat else S i) ((tot + nth i v 0 * b2n b) mod 65536)
  end.
(** core/model/mod.rs:703-711 *)
Definition ty_hf (key : bytes) (v : list N) : N := ty_hf_go v key 0 0.
(** core/model/mod.rs:712-714 [pf] *)
Definition ty_pf (key : bytes) : N :=
  (nth (N.to_nat (ty_hf key ty_s1)) ty_g 0 + nth (N.to_nat (ty_hf key ty_s2)) ty_g 0) mod 15.
(** core/model/mod.rs:715-722 [get_layer] *)
Definition get_layer (ident : bytes) : option tsel :=
  match nth_error ty_lut (N.to_nat (ty_pf ident)) with
  | Some (n, t) => if bseq n ident then Some t else None
  | None => None
  end.

(** [LayerSpec], ql/ddl/syn.rs:254-257 *)
Record layer_spec := mk_ls { ls_ty : bytes; ls_props : dict }.

(** core/model/mod.rs:566-576, the loop of [parse_layers]; [ls] is the specification already
    reversed (line 562). Result: [okay], [fin], number of layers not read, layers. *)
Fixpoint parse_layers_go (ls : list layer_spec) (acc : list tsel) : bool * bool * list layer_spec * list tsel :=
  match ls with
  | [] => (true, false, [], acc)
  | l :: ls' =>
      let okp := match ls_props l with [] => true | _ => false end in
      match get_layer (ls_ty l) with
      | Some t =>
          let fin := negb (tsel_eqb t TsList) in
          let acc' := acc ++ [t] in
          if okp && negb fin then parse_layers_go ls' acc' else (okp, fin, ls', acc')
      | None => (false, false, ls', acc)
      end
  end.

(** core/model/mod.rs:561-586 [Field::parse_layers] *)
Definition parse_layers (spec : list layer_spec) (nullable : bool) : option field :=
  let '(okay, fin, rest, layers) := parse_layers_go (rev spec) [] in
  if okay && fin && match rest with [] => true | _ => false end
  then Some (mk_field nullable layers) else None.
