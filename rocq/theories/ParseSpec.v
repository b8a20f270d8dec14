(** Specification of the DML statements: how a statement is written as a sequence of tokens. It does
    not refer to the parsers. *)
From Coq Require Import Strings.String List NArith Bool.
From Verif Require Import Bytes DataModel RowModel LexModel.
Import ListNotations.

(** keywords *)
Definition kmis (k : kmisc) : token := TKw (KMisc k).

(** a model is written [space.model], or [model] when the connection has a current space [cs] *)
Inductive names (cs : option bytes) : list token -> bytes * bytes -> Prop :=
| names_full a b : names cs [TId a; TSym SPeriod; TId b] (a, b)
| names_short a b : cs = Some a -> names cs [TId b] (a, b).

(** items separated by a token *)
Fixpoint sep (d : token) (l : list (list token)) : list token :=
  match l with
  | nil => nil
  | [x] => x
  | x :: t => x ++ d :: sep d t
  end.

(** conditions *)
Definition rel_toks (c : bytes * (relop * lit)) : list token :=
  TId (fst c) ::
  match fst (snd c) with
  | OpEq => [TSym SAssign]
  | OpNe => [TSym SNot; TSym SAssign]
  | OpGt => [TSym SGt]
  | OpGe => [TSym SGt; TSym SAssign]
  | OpLt => [TSym SLt]
  | OpLe => [TSym SLt; TSym SAssign]
  end ++ [TLit (snd (snd c))].
Definition where_toks (w : where_) : list token := sep (kmis KmAnd) (map rel_toks w).
(** a WHERE clause has a condition, and no column twice *)
Definition where_ok (w : where_) : Prop := w <> nil /\ NoDup (map fst w).

(** assignments *)
Definition asg_toks (a : assign) : list token :=
  TId (as_lhs a) ::
  match as_op a with
  | AAssign => [TSym SAssign]
  | AAdd => [TSym SAdd; TSym SAssign]
  | ASub => [TSym SSub; TSym SAssign]
  | AMul => [TSym SMul; TSym SAssign]
  | ADiv => [TSym SDiv; TSym SAssign]
  end ++ [TLit (as_rhs a)].
Definition set_toks (l : list assign) : list token := sep (TSym SComma) (map asg_toks l).

(** the fields of a SELECT *)
Definition field_toks (f : option (list bytes)) : list token :=
  match f with
  | None => [TSym SMul]
  | Some l => sep (TSym SComma) (map (fun k => [TId k]) l)
  end.
Definition fields_ok (f : option (list bytes)) : Prop := f <> Some nil.

(** the statements, after their first keyword *)
Inductive wf_delete cs : list token -> bytes * bytes -> where_ -> Prop :=
| wfd en e w : names cs en e -> where_ok w ->
    wf_delete cs (kmis KmFrom :: en ++ kmis KmWhere :: where_toks w) e w.
Inductive wf_update cs : list token -> bytes * bytes -> list assign -> where_ -> Prop :=
| wfu en e l w : names cs en e -> l <> nil -> where_ok w ->
    wf_update cs (en ++ kmis KmSet :: set_toks l ++ kmis KmWhere :: where_toks w) e l w.
Inductive wf_select cs : list token -> bytes * bytes -> option (list bytes) -> where_ -> Prop :=
| wfs_all en e f : names cs en e -> fields_ok f ->
    wf_select cs (field_toks f ++ kmis KmFrom :: en) e f nil
| wfs_where en e f w : names cs en e -> fields_ok f -> where_ok w ->
    wf_select cs (field_toks f ++ kmis KmFrom :: en ++ kmis KmWhere :: where_toks w) e f w.
Inductive wf_select_all cs : list token -> bytes * bytes -> option (list bytes) -> N -> Prop :=
| wfsa en e f n : names cs en e -> fields_ok f ->
    wf_select_all cs (field_toks f ++ kmis KmFrom :: en ++ [kmis KmLimit; TLit (LUInt n)]) e f n.

Section Ins.
Variable uuid_text : nat -> bytes.
Variable uuid_bin : nat -> bytes.
Variable now_secs : nat -> N.

(** the value of a producer function called with [n] tokens of the statement left *)
Inductive fnval : bytes -> nat -> cell -> Prop :=
| fv_str n : fnval (bstr "uuidstr"%string) n (CStr (uuid_text n))
| fv_bin n : fnval (bstr "uuidbin"%string) n (CBin (uuid_bin n))
| fv_time n : fnval (bstr "timesec"%string) n (CQw QU64 (now_secs n)).

(** the elements of a list have one type class, and so have the elements of its nested lists *)
Definition uniform (l : list cell) : Prop :=
  (forall a b, In a l -> In b l -> cell_class a = cell_class b) /\
  (forall la lb a b, In (CList la) l -> In (CList lb) l -> In a la -> In b lb ->
     cell_class a = cell_class b).

(** [lval t c r]: the tokens [t] start with a value [c] that may stand in a list, and [r] is what
    follows it; [lvals t l r]: [t] starts with the elements [l] up to the closing bracket *)
Inductive lval : list token -> cell -> list token -> Prop :=
| lv_lit x r : lval (TLit x :: r) (lit_cell x) r
| lv_fn f c r : fnval f (length r) c ->
    lval (TSym SAt :: TId f :: TSym SOpenParen :: TSym SCloseParen :: r) c r
| lv_nil r : lval (TSym SOpenSq :: TSym SCloseSq :: r) (CList nil) r
| lv_list t l r : lvals t l r -> uniform l -> lval (TSym SOpenSq :: t) (CList l) r
with lvals : list token -> list cell -> list token -> Prop :=
| lvs_one t c r : lval t c (TSym SCloseSq :: r) -> lvals t [c] r
| lvs_more t c t' l r : lval t c (TSym SComma :: t') -> lvals t' l r -> lvals t (c :: l) r.

(** a value of a row: also null *)
Inductive rval : list token -> cell -> list token -> Prop :=
| rv_null r : rval (kmis KmNull :: r) CNull r
| rv_val t c r : lval t c r -> rval t c r.

(** [value, ..., value)] *)
Inductive tvals : list token -> list cell -> Prop :=
| tvs_one t c : rval t c [TSym SCloseParen] -> tvals t [c]
| tvs_more t c t' l : rval t c (TSym SComma :: t') -> tvals t' l -> tvals t (c :: l).
(** [name: value, ..., name: value}] *)
Inductive mvals : list token -> list (bytes * cell) -> Prop :=
| mvs_one k t c : rval t c [TSym SCloseBrace] -> mvals (TId k :: TSym SColon :: t) [(k, c)]
| mvs_more k t c t' l : rval t c (TSym SComma :: t') -> mvals t' l ->
    mvals (TId k :: TSym SColon :: t) ((k, c) :: l).

(** what follows the model's name *)
Inductive wf_data : list token -> insdata -> Prop :=
| wfi_none : wf_data [TSym SOpenParen; TSym SCloseParen] (InsTuple nil)
| wfi_tuple t l : tvals t l -> wf_data (TSym SOpenParen :: t) (InsTuple l)
| wfi_empty : wf_data [TSym SOpenBrace; TSym SCloseBrace] (InsMap nil)
| wfi_map t l : mvals t l -> NoDup (map fst l) -> wf_data (TSym SOpenBrace :: t) (InsMap l).
Inductive wf_insert cs : list token -> bytes * bytes -> insdata -> Prop :=
| wfi en e d t : names cs en e -> wf_data t d -> wf_insert cs (kmis KmInto :: en ++ t) e d.
End Ins.

(** the closing token of the data *)
Definition close_of (d : insdata) : token :=
  match d with InsTuple _ => TSym SCloseParen | InsMap _ => TSym SCloseBrace end.
