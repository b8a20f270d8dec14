(** What keys, literals and cells in memory stand for. *)
From Coq Require Import List NArith Bool.
From Verif Require Import Bytes DataModel RowModel KeyModel.
Import ListNotations.
Local Open Scope N_scope.

(** bytes [b] at address [p]: a block of exactly these bytes, or no block for no bytes *)
Definition at_addr (m : mem) (p : N) (b : bytes) : Prop := p <> 0 /\ (b = [] \/ m p = Some b).

(** the key in memory is the value *)
Inductive is_key (m : mem) : key -> pkey -> Prop :=
| IkU w : is_key m (mk_key TuUInt w zero_block) (PkUInt w)
| IkS w : is_key m (mk_key TuSInt w zero_block) (PkSInt w)
| IkB p b : at_addr m p b -> is_key m (mk_key TuBin (len b) p) (PkBin b)
| IkT p b : at_addr m p b -> is_key m (mk_key TuStr (len b) p) (PkStr b).

(** the literal in memory is the value *)
Inductive is_lit (m : mem) : rlit -> lit -> Prop :=
| IlU w : is_lit m (mk_rlit TsU64 w zero_block) (LUInt w)
| IlS w : is_lit m (mk_rlit TsS64 w zero_block) (LSInt w)
| IlF w : is_lit m (mk_rlit TsF64 w zero_block) (LFloat w)
| IlO (o : bool) : is_lit m (mk_rlit TsBool (if o then 1 else 0) zero_block) (LBool o)
| IlB p b : at_addr m p b -> is_lit m (mk_rlit TsBin (len b) p) (LBin b)
| IlT p b : at_addr m p b -> is_lit m (mk_rlit TsStr (len b) p) (LStr b).

(** the cell in memory is the value (lists apart) *)
Inductive is_cell (m : mem) : dcell -> cell -> Prop :=
| IcN : is_cell m (mk_dc TsBool false 0 0) CNull
| IcO (o : bool) : is_cell m (mk_dc TsBool true (if o then 1 else 0) zero_block) (CBool o)
| IcQ q w : is_cell m (mk_dc (qsel_tsel q) true w zero_block) (CQw q w)
| IcB p b : at_addr m p b -> is_cell m (mk_dc TsBin true (len b) p) (CBin b)
| IcT p b : at_addr m p b -> is_cell m (mk_dc TsStr true (len b) p) (CStr b).

(** the values a key can have: the kinds are unsigned, signed, binary, string *)
Inductive kind := KUnsigned | KSigned | KBinary | KString.
Definition kind_of (k : pkey) : option kind :=
  match k with PkUInt _ => Some KUnsigned | PkSInt _ => Some KSigned | PkBin _ => Some KBinary | PkStr _ => Some KString | PkNull => None end.
(** bytes of binary and string keys *)
Definition body_of (k : pkey) : bytes := match k with PkBin b | PkStr b => b | _ => [] end.
