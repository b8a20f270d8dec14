(** What it means for a value to belong to a declared type, what an UPDATE should do, and what a table
    of rows is: stated from the documentation of the types, without the functions of RowModel.v (only
    the syntax of statements is taken from there). *)
From Coq Require Import List NArith ZArith Bool.
From Verif Require Import Bytes AMap DataModel CodecModel RowModel.
Import ListNotations.
Local Open Scope N_scope.

(** the integer a signed 64-bit word denotes *)
Definition sval (w : N) : Z := if w <? 2 ^ 63 then Z.of_N w else (Z.of_N w - 2 ^ 64)%Z.

(** the values of the numeric types: [uint8] .. [uint64], [sint8] .. [sint64]; a float is in range when
    it is finite and, for [float32], not larger than the largest finite single *)
Definition in_range (q : qsel) (w : N) : Prop :=
  match q with
  | QU8 => w < 2 ^ 8 | QU16 => w < 2 ^ 16 | QU32 => w < 2 ^ 32 | QU64 => w < 2 ^ 64
  | QS8 => (- 2 ^ 7 <= sval w < 2 ^ 7)%Z
  | QS16 => (- 2 ^ 15 <= sval w < 2 ^ 15)%Z
  | QS32 => (- 2 ^ 31 <= sval w < 2 ^ 31)%Z
  | QS64 => (- 2 ^ 63 <= sval w < 2 ^ 63)%Z
  | QF32 => w mod 2 ^ 63 <= 0x47EFFFFFE0000000
  | QF64 => w mod 2 ^ 63 < 0x7FF0000000000000
  end.

(** [conf R ls c]: the value [c] belongs to the type with layers [ls] (outermost first); [R] relates
    the declared width and the width recorded in the cell *)
Section Conf.
  Variable R : qsel -> qsel -> Prop.
  Inductive conf : list tsel -> cell -> Prop :=
  | conf_bool b : conf [TsBool] (CBool b)
  | conf_bin b : conf [TsBin] (CBin b)
  | conf_str b : conf [TsStr] (CStr b)
  | conf_num q q' w : R q q' -> in_range q w -> conf [qsel_tsel q] (CQw q' w)
  | conf_list ls xs : (forall x, In x xs -> conf ls x) -> conf (TsList :: ls) (CList xs).
End Conf.

(** exactly the declared type *)
Definition typed : list tsel -> cell -> Prop := conf eq.
(** the declared type up to the recorded width *)
Definition same_class (a b : qsel) : Prop := tsel_class (qsel_tsel a) = tsel_class (qsel_tsel b).
Definition fits : list tsel -> cell -> Prop := conf same_class.

(** a value a field may hold *)
Definition accepts (f : field) (c : cell) : Prop :=
  (c = CNull /\ f_null f = true) \/ fits (f_layers f) c.
Definition accepts_typed (f : field) (c : cell) : Prop :=
  (c = CNull /\ f_null f = true) \/ typed (f_layers f) c.

(** the value of a cell without its recorded width *)
Definition widest (q : qsel) : qsel :=
  match q with
  | QU8 | QU16 | QU32 | QU64 => QU64 | QS8 | QS16 | QS32 | QS64 => QS64 | QF32 | QF64 => QF64
  end.
Fixpoint strip (c : cell) : cell :=
  match c with
  | CQw q w => CQw (widest q) w
  | CList xs => CList (map strip xs)
  | _ => c
  end.

(** the value of a cell with the declared width recorded *)
Fixpoint retag (ls : list tsel) (c : cell) : cell :=
  match ls, c with
  | TsList :: ls', CList xs => CList (map (retag ls') xs)
  | t :: _, CQw q w => CQw (match tsel_qsel t with Some q' => q' | None => q end) w
  | _, _ => c
  end.

(** the query language has no null inside a list *)
Fixpoint no_null (c : cell) : bool :=
  match c with
  | CNull => false
  | CList xs => forallb no_null xs
  | _ => true
  end.
Definition arg_ok (c : cell) : Prop := c = CNull \/ no_null c = true.

(** the value an INSERT supplies for a column *)
Definition supplied (lay : layout) (d : insdata) (k : bytes) : option cell :=
  match d with
  | InsTuple t => aget bseq k (combine (map fst (lo_fields lay)) t)
  | InsMap m => aget bseq k m
  end.
(** the columns an INSERT supplies are exactly the declared ones *)
Definition supplies_all (lay : layout) (d : insdata) : Prop :=
  match d with
  | InsTuple t => length t = length (lo_fields lay)
  | InsMap m => NoDup (map fst m) /\ (forall k, In k (map fst m) <-> In k (map fst (lo_fields lay)))
  end.
(** an INSERT that conforms to the schema *)
Definition conforming (lay : layout) (d : insdata) : Prop :=
  supplies_all lay d /\
  forall k f, aget bseq k (lo_fields lay) = Some f ->
    exists c, supplied lay d k = Some c /\ accepts f c.

(** ** UPDATE *)

(** exact integer arithmetic; [None] for a division by zero *)
Definition exact_z (o : aop) (a b : Z) : option Z :=
  match o with
  | AAssign => Some b
  | AAdd => Some (a + b)%Z
  | ASub => Some (a - b)%Z
  | AMul => Some (a * b)%Z
  | ADiv => if (b =? 0)%Z then None else Some (Z.quot a b)
  end.

(** the 64-bit word of an integer of type [q], when it is one *)
Definition z_min (q : qsel) : Z :=
  match q with QS8 => - 2 ^ 7 | QS16 => - 2 ^ 15 | QS32 => - 2 ^ 31 | QS64 => - 2 ^ 63 | _ => 0 end.
Definition z_max (q : qsel) : Z :=
  match q with
  | QU8 => 2 ^ 8 - 1 | QU16 => 2 ^ 16 - 1 | QU32 => 2 ^ 32 - 1 | QU64 => 2 ^ 64 - 1
  | QS8 => 2 ^ 7 - 1 | QS16 => 2 ^ 15 - 1 | QS32 => 2 ^ 31 - 1 | QS64 => 2 ^ 63 - 1 | _ => 0
  end.
Definition int_cell (q : qsel) (z : Z) : option cell :=
  if ((z_min q <=? z) && (z <=? z_max q))%Z
  then Some (CQw q (Z.to_N (if (z <? 0)%Z then z + 2 ^ 64 else z)))
  else None.

Section Upd.
Variable farith : aop -> N -> N -> N.

(** one number assigned: [old] is the stored word, absent when the column is null *)
Definition exact_num (q : qsel) (o : aop) (old : option N) (l : lit) : option cell :=
  let is_as := match o with AAssign => true | _ => false end in
  if negb is_as && match old with None => true | _ => false end then None else
  let a := match old with Some a => a | None => 0 end in
  match tsel_class (qsel_tsel q), l with
  | TcUInt, LUInt b =>
      match exact_z o (Z.of_N a) (Z.of_N b) with Some z => int_cell q z | None => None end
  | TcSInt, LSInt b =>
      match exact_z o (sval a) (sval b) with Some z => int_cell q z | None => None end
  | TcFloat, LFloat b =>
      let w := if is_as then b else farith o a b in
      let lim := match q with QF32 => 0x47EFFFFFE0000000 | _ => 0x7FEFFFFFFFFFFFFF end in
      if w mod 2 ^ 63 <=? lim then Some (CQw q w) else None
  | _, _ => None
  end.

(** one assignment to a column of the given layers holding [c] *)
Definition exact_assign (ls : list tsel) (o : aop) (c : cell) (l : lit) : option cell :=
  match ls with
  | [t] =>
      match tsel_qsel t with
      | Some q =>
          match c with
          | CNull => exact_num q o None l
          | CQw _ a => exact_num q o (Some a) l
          | _ => None
          end
      | None =>
          match t, o, l, c with
          | TsBool, AAssign, LBool b, _ => Some (CBool b)
          | TsBin, AAssign, LBin b, _ => Some (CBin b)
          | TsBin, AAdd, LBin b, CBin a => Some (CBin (a ++ b))
          | TsStr, AAssign, LStr b, _ => Some (CStr b)
          | TsStr, AAdd, LStr b, CStr a => Some (CStr (a ++ b))
          | _, _, _, _ => None
          end
      end
  | [TsList; t] =>
      match o, c with
      | AAdd, CList xs =>
          let e := match tsel_qsel t with
                   | Some q => exact_num q AAssign None l
                   | None =>
                       match t, l with
                       | TsBool, LBool b => Some (CBool b)
                       | TsBin, LBin b => Some (CBin b)
                       | TsStr, LStr b => Some (CStr b)
                       | _, _ => None
                       end
                   end in
          match e with Some e => Some (CList (xs ++ [e])) | None => None end
      | _, _ => None
      end
  | _ => None
  end.

(** all assignments in order, or nothing; a row is a function from column names *)
Fixpoint exact_update (fs : fieldmap) (asg : list assign) (row : bytes -> option cell)
  : option (bytes -> option cell) :=
  match asg with
  | [] => Some row
  | a :: asg' =>
      match aget bseq (as_lhs a) fs, row (as_lhs a) with
      | Some f, Some c =>
          match exact_assign (f_layers f) (as_op a) c (as_rhs a) with
          | Some c' =>
              exact_update fs asg' (fun k => if bseq k (as_lhs a) then Some c' else row k)
          | None => None
          end
      | _, _ => None
      end
  end.
End Upd.

(** ** A table with a primary key *)

(** the columns other than the key, of every row *)
Definition table := pkey -> option rfields.
Definition tput (k : pkey) (r : option rfields) (t : table) : table :=
  fun k' => if pkey_eqb k' k then r else t k'.

(** the key a WHERE clause asks for: equality on the key column with a literal of the key's type *)
Definition asked (lay : layout) (w : where_) : option pkey :=
  match aget bseq (lo_pk lay) w with
  | Some (OpEq, l) =>
      match l, tsel_uniq (lo_ptag lay) with
      | LUInt n, TuUInt => Some (PkUInt n)
      | LSInt n, TuSInt => Some (PkSInt n)
      | LBin b, TuBin => Some (PkBin b)
      | LStr b, TuStr => Some (PkStr b)
      | _, _ => None
      end
  | _ => None
  end.

(** the key and the other columns of a conforming INSERT *)
Definition cell_pkey (c : cell) : pkey :=
  match c with
  | CQw (QU8 | QU16 | QU32 | QU64) w => PkUInt w
  | CQw (QS8 | QS16 | QS32 | QS64) w => PkSInt w
  | CBin b => PkBin b
  | CStr b => PkStr b
  | _ => PkNull
  end.
Definition ins_key (lay : layout) (d : insdata) : pkey :=
  match supplied lay d (lo_pk lay) with Some c => cell_pkey c | None => PkNull end.
Definition declared (lay : layout) (k : bytes) : list tsel :=
  match aget bseq k (lo_fields lay) with Some f => f_layers f | None => [] end.
Definition ins_row (lay : layout) (d : insdata) : rfields :=
  let all := match d with
             | InsTuple t => combine (map fst (lo_fields lay)) t
             | InsMap m => m
             end in
  map (fun kv => (fst kv, retag (declared lay (fst kv)) (snd kv)))
      (filter (fun kv => negb (bseq (lo_pk lay) (fst kv))) all).

(** what a statement and its outcome say about the table; [upd] is the effect of UPDATE on the columns
    of one row *)
Section Table.
Variable upd : rfields -> list assign -> rfields.
Variable lay : layout.
Definition tlog (t : table) (e : rstmt * rout) : table :=
  match e with
  | (RInsert d, RoOk) => tput (ins_key lay d) (Some (ins_row lay d)) t
  | (RDelete w, RoOk) => match asked lay w with Some k => tput k None t | None => t end
  | (RUpdate w asg, _) =>
      match asked lay w with
      | Some k => match t k with Some m => tput k (Some (upd m asg)) t | None => t end
      | None => t
      end
  | _ => t
  end.
(** the table after a history, from the empty one *)
Definition table_of (h : list (rstmt * rout)) : table := fold_left tlog h (fun _ => None).
End Table.
