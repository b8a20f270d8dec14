(** One model and its rows: value typing (core/model/mod.rs), INSERT, UPDATE, DELETE, SELECT,
    SELECT ALL (core/dml/*.rs), schema deltas (core/model/delta.rs, core/index/row.rs), ALTER MODEL
    applied to a model with rows, and the queue of data deltas.

    Simplifications: a statement runs to completion before the next one starts (row locks and the
    index latch are not modelled here); the primary index is a finite map from keys to row objects
    (its tree is the subject of another file); allocation never fails; row objects are never freed. *)
From Coq Require Import Strings.String List NArith ZArith Bool.
From Verif Require Import Bytes AMap DataModel CodecModel DictModel TypeModel GnsCodecModel GnsModel.
Import ListNotations.
Local Open Scope N_scope.

(** ** Literals and operators *)

(** [Lit], data/lit.rs:44-49; its tag is one of BOOL, UINT, SINT, FLOAT, BIN, STR (52-70, 168-197).
    Integers and floats are the raw 64-bit word (114-131). *)
Inductive lit := LBool (b : bool) | LUInt (w : N) | LSInt (w : N) | LFloat (w : N) | LBin (b : bytes) | LStr (b : bytes).

(** [AssignmentOperator], core/query_meta.rs:27-45 *)
Inductive aop := AAssign | AAdd | ASub | AMul | ADiv.

(** operators of a WHERE clause, ql/dml/mod.rs:70-76 *)
Inductive relop := OpEq | OpNe | OpGt | OpGe | OpLt | OpLe.

(** [lit.kind().tag_class()], data/lit.rs:202-204 with data/tag.rs:207-215 *)
Definition lit_class (l : lit) : tclass :=
  match l with
  | LBool _ => TcBool | LUInt _ => TcUInt | LSInt _ => TcSInt | LFloat _ => TcFloat
  | LBin _ => TcBin | LStr _ => TcStr
  end.

(** [lit.kind().tag_unique()], data/tag.rs:207-215 *)
Definition lit_uniq (l : lit) : tuniq :=
  match l with
  | LUInt _ => TuUInt | LSInt _ => TuSInt | LBin _ => TuBin | LStr _ => TuStr | _ => TuIllegal
  end.

(** [From<Lit> for Datacell], data/cell.rs:295-326: the literal's own tag (UInt64, SInt64, Float64) *)
Definition lit_cell (l : lit) : cell :=
  match l with
  | LBool b => CBool b | LUInt w => CQw QU64 w | LSInt w => CQw QS64 w | LFloat w => CQw QF64 w
  | LBin b => CBin b | LStr b => CStr b
  end.

(** ** Range checks *)

(** a word read as [i64], data/cell.rs:116-118 *)
Definition s64 (w : N) : Z :=
  if w <? 9223372036854775808 then Z.of_N w else (Z.of_N w - 18446744073709551616)%Z.
(** an integer stored as a 64-bit word (wrapping) *)
Definition word (z : Z) : N := Z.to_N (z mod 18446744073709551616).

(** data/tag.rs:231 [UIntSpec::LIM_MAX], 253-254 [SIntSpec::LIM_MIN/LIM_MAX], 276-277
    [FloatSpec::LIM_MIN/LIM_MAX] with the checks at 237-239, 259-262, 282-285. For floats the
    comparison of IEEE values against symmetric finite limits is a comparison of the magnitude bits:
    [f64::MAX] is 0x7FEFFFFFFFFFFFFF and [f32::MAX as f64] is 0x47EFFFFFE0000000; NaN and infinities
    have larger patterns and are refused. *)
Definition spec_check (q : qsel) (w : N) : bool :=
  match q with
  | QU8 => w <=? 255
  | QU16 => w <=? 65535
  | QU32 => w <=? 4294967295
  | QU64 => w <=? 18446744073709551615
  | QS8 => ((-128 <=? s64 w) && (s64 w <=? 127))%Z
  | QS16 => ((-32768 <=? s64 w) && (s64 w <=? 32767))%Z
  | QS32 => ((-2147483648 <=? s64 w) && (s64 w <=? 2147483647))%Z
  | QS64 => ((-9223372036854775808 <=? s64 w) && (s64 w <=? 9223372036854775807))%Z
  | QF32 => w mod 9223372036854775808 <=? 5183643170566569984
  | QF64 => w mod 9223372036854775808 <=? 9218868437227405311
  end.

(** ** Typing a value against a field *)

(** result of a check that may also panic *)
Inductive vr (A : Type) := VOk (a : A) | VNo | VPanic.
Arguments VOk {A}. Arguments VNo {A}. Arguments VPanic {A}.

(** core/model/mod.rs:744-784 [VTFN]: entry [k] applied to a layer and a cell. The numeric entries set
    the cell's tag to the layer's and check the range; they are only reached with a word cell and a
    numeric layer of the same class. *)
Definition vtfn (k : tclass) (t : tsel) (c : cell) : vr cell :=
  match k with
  | TcBool | TcBin | TcStr | TcList => VOk c
  | TcUInt | TcSInt | TcFloat =>
      match tsel_qsel t, c with
      | Some q, CQw _ w => if spec_check q w then VOk (CQw q w) else VNo
      | _, _ => VNo
      end
  end.

(** a check applied to every element, stopping at the first refusal: the loop of
    core/model/mod.rs:622-626 *)
Fixpoint vmap {A B} (f : A -> vr B) (l : list A) : vr (list B) :=
  match l with
  | [] => VOk []
  | x :: l' =>
      match f x with
      | VOk y => match vmap f l' with VOk ys => VOk (y :: ys) | VNo => VNo | VPanic => VPanic end
      | VNo => VNo
      | VPanic => VPanic
      end
  end.

(** core/model/mod.rs:607-637 [Field::rvt_data]; [layers[0]] on an empty slice panics *)
Fixpoint rvt (ls : list tsel) (c : cell) : vr cell :=
  match ls with
  | [] => VPanic
  | t :: rest =>
      match tsel_class t, c with
      | TcList, CList xs =>
          match vmap (rvt rest) xs with VOk ys => VOk (CList ys) | VNo => VNo | VPanic => VPanic end
      | k, _ => if tclass_eqb k (cell_class c) then vtfn k t c else VNo
      end
  end.

(** core/model/mod.rs:588-598 [compute_index] and 599-606 [vt_data_fpath] *)
Definition vt (f : field) (c : cell) : vr cell :=
  match f_layers f with
  | [] => VPanic
  | t :: rest =>
      if match rest with [] => true | _ => false end || negb (cell_init c) then
        if (negb (f_null f) && negb (cell_init c))
           || (negb (tclass_eqb (tsel_class t) (cell_class c)) && cell_init c)
        then VNo
        else vtfn (cell_class c) t c
      else rvt (t :: rest) c
  end.

(** ** Rows *)

(** [PrimaryIndexKey], core/index/key.rs:47-50, with the equality of 227-233 (tag, word, bytes).
    [PkNull] is the key made from a null cell: tag [Illegal], word 0 (key.rs:136-155). *)
Inductive pkey := PkUInt (w : N) | PkSInt (w : N) | PkBin (b : bytes) | PkStr (b : bytes) | PkNull.

(** [PrimaryIndexKey::eq], core/index/key.rs:227-233 *)
Definition pkey_eqb (a b : pkey) : bool :=
  match a, b with
  | PkUInt x, PkUInt y => x =? y
  | PkSInt x, PkSInt y => x =? y
  | PkBin x, PkBin y => bseq x y
  | PkStr x, PkStr y => bseq x y
  | PkNull, PkNull => true
  | _, _ => false
  end.

(** [PrimaryIndexKey::new_from_dc], core/index/key.rs:136-155. The type of a primary key is an
    integer, binary or string type, so the other classes do not occur and are sent to [PkNull]. *)
Definition cell_key (c : cell) : pkey :=
  match c with
  | CQw (QU8 | QU16 | QU32 | QU64) w => PkUInt w
  | CQw (QS8 | QS16 | QS32 | QS64) w => PkSInt w
  | CBin b => PkBin b
  | CStr b => PkStr b
  | _ => PkNull
  end.

(** the key a literal is compared with: [PartialEq<Lit> for PrimaryIndexKey], key.rs:244-252 *)
Definition lit_key (l : lit) : pkey :=
  match l with
  | LUInt w => PkUInt w | LSInt w => PkSInt w | LBin b => PkBin b | LStr b => PkStr b
  | LBool _ | LFloat _ => PkNull
  end.

(** [VirtualDatacell::new_pk], data/cell.rs:525-533: the key's word under the model's key tag (a null
    key reads as zero or as the empty slice) *)
Definition pk_cell (t : tsel) (k : pkey) : cell :=
  match tsel_qsel t with
  | Some q => CQw q (match k with PkUInt w | PkSInt w => w | _ => 0 end)
  | None =>
      let b := match k with PkBin b | PkStr b => b | _ => [] end in
      match t with TsStr => CStr b | _ => CBin b end
  end.

(** [DcFieldIndex], core/index/row.rs:42 *)
Definition rfields := list (bytes * cell).
(** [st_insert] on a hash map: keeps an existing entry, idx/stdhm.rs:106-114 *)
Definition rf_insert (k : bytes) (c : cell) (m : rfields) : rfields * bool :=
  match aget bseq k m with Some _ => (m, false) | None => (m ++ [(k, c)], true) end.
(** [st_update] on a hash map: only replaces an existing entry, idx/stdhm.rs:160-173 *)
Definition rf_update (k : bytes) (c : cell) (m : rfields) : rfields :=
  match aget bseq k m with Some _ => aput bseq k c m | None => m end.

(** [Row]/[RowData], core/index/row.rs:44-56: key, fields, version of the last data change, version of
    the last schema delta applied *)
Record rowobj := mk_row { ro_key : pkey; ro_fields : rfields; ro_rev : N; ro_sv : nat }.

(** [SchemaDeltaKind], core/model/delta.rs:184-188 *)
Inductive sdelta := SdAdd (f : bytes) | SdRem (f : bytes).
(** [DataDeltaKind], core/model/delta.rs:232-238 *)
Inductive dkind := DkDelete | DkInsert | DkUpdate.
(** [DataDelta], core/model/delta.rs:206-211; the row is a shared reference, here the object's index *)
Record ddelta := mk_dd { dd_ver : N; dd_row : nat; dd_kind : dkind }.

(** [ModelData], core/model/mod.rs:82-91 with [DeltaState], core/model/delta.rs:44-52. The schema
    deltas form a map from 0, 1, ...; the n-th one is the n-th of the list and the current schema
    version is the length of the list (delta.rs:133-142). [m_objs] are the row objects reachable from
    the index or from queued deltas; [m_iffy] is the driver's status (fractal/drivers.rs:81-84). *)
Record mst := mk_mst {
  m_lay : layout;
  m_sd : list sdelta;
  m_objs : list rowobj;
  m_idx : list (pkey * nat);
  m_dver : N;
  m_queue : list ddelta;
  m_qsize : N;
  m_iffy : bool
}.

(** field updates (no counterpart: Rust assigns in place) *)
Definition set_objs (o : list rowobj) (s : mst) : mst :=
  mk_mst (m_lay s) (m_sd s) o (m_idx s) (m_dver s) (m_queue s) (m_qsize s) (m_iffy s).
(** field update, as above *)
Definition set_idx (i : list (pkey * nat)) (s : mst) : mst :=
  mk_mst (m_lay s) (m_sd s) (m_objs s) i (m_dver s) (m_queue s) (m_qsize s) (m_iffy s).
(** field update, as above *)
Definition set_dver (v : N) (s : mst) : mst :=
  mk_mst (m_lay s) (m_sd s) (m_objs s) (m_idx s) v (m_queue s) (m_qsize s) (m_iffy s).
(** field update, as above *)
Definition set_queue (q : list ddelta) (n : N) (s : mst) : mst :=
  mk_mst (m_lay s) (m_sd s) (m_objs s) (m_idx s) (m_dver s) q n (m_iffy s).
(** field update, as above *)
Definition set_schema (l : layout) (d : list sdelta) (s : mst) : mst :=
  mk_mst l d (m_objs s) (m_idx s) (m_dver s) (m_queue s) (m_qsize s) (m_iffy s).

(** a fresh model, core/model/mod.rs:178-199 *)
Definition mst_new (l : layout) : mst := mk_mst l [] [] [] 0 [] 0 false.

(** replacing the n-th object (a write through the row's lock, core/index/row.rs:126) *)
Fixpoint upd_nth {A} (n : nat) (x : A) (l : list A) : list A :=
  match n, l with
  | _, [] => []
  | O, _ :: l' => x :: l'
  | S n', y :: l' => y :: upd_nth n' x l'
  end.

(** [DeltaState::create_new_data_delta_version], core/model/delta.rs:99-107 *)
Definition bump_dver (s : mst) : mst := set_dver (m_dver s + 1) s.
(** [append_new_data_delta], core/model/delta.rs:95-98 *)
Definition enqueue (d : ddelta) (s : mst) : mst := set_queue (m_queue s ++ [d]) (m_qsize s + 1) s.

(** the current schema version, core/model/delta.rs:121-123 *)
Definition sver (s : mst) : nat := length (m_sd s).

(** one schema delta applied to a row, core/index/row.rs:158-173 *)
Definition apply_sd (m : rfields) (d : sdelta) : rfields :=
  match d with
  | SdAdd f => fst (rf_insert f CNull m)
  | SdRem f => adel bseq f m
  end.

(** [Row::resolve_schema_deltas_and_freeze], core/index/row.rs:142-186, with
    [DeltaState::resolve_iter_since] (delta.rs:115-120): deltas from the row's version *plus one* on;
    the row's version becomes the number of the last delta applied *)
Definition resolve (sd : list sdelta) (o : rowobj) : rowobj :=
  if Nat.leb (length sd) (ro_sv o) then o
  else
    let ds := skipn (S (ro_sv o)) sd in
    mk_row (ro_key o) (fold_left apply_sd ds (ro_fields o)) (ro_rev o)
           (match ds with [] => ro_sv o | _ => pred (length sd) end).

(** ** Statements *)

(** [InsertData], ql/dml/ins.rs *)
Inductive insdata := InsTuple (l : list cell) | InsMap (m : list (bytes * cell)).
(** [WhereClause]: at most one clause per column, ql/dml/mod.rs *)
Definition where_ := list (bytes * (relop * lit)).
(** [AssignmentExpression], ql/dml/upd.rs *)
Record assign := mk_as { as_lhs : bytes; as_op : aop; as_rhs : lit }.

(** the statements on one model: ql/dml/ins.rs, sel.rs, upd.rs, del.rs and ALTER MODEL (ql/ddl/alt.rs) *)
Inductive rstmt :=
| RInsert (d : insdata)
| RUpdate (w : where_) (asg : list assign)
| RDelete (w : where_)
| RSelect (w : where_) (cols : option (list bytes))
| RSelectAll (cols : option (list bytes)) (limit : N)
| RAlter (k : alter_kind) (commit_ok : bool).

(** the errors of core/dml/*.rs (engine/error.rs:80-96), and those of ALTER *)
Inductive rerr := EDup | EValid | EField | ENoRow | EWhere | ESys | EAlter (e : qerr).

(** what the client sees. [RoPanic]: the task dies; [RoUb]: undefined behaviour *)
Inductive rout :=
| RoOk | RoRow (l : list cell) | RoRows (l : list (list cell)) | RoErr (e : rerr) | RoPanic | RoUb.

(** the loop over a positional insert, core/dml/ins.rs:81-101 *)
Fixpoint ins_tuple (fs : fieldmap) (l : list cell) (acc : rfields) : vr rfields :=
  match fs, l with
  | (k, f) :: fs', c :: l' =>
      match vt f c with
      | VOk c' => let '(acc', ok) := rf_insert k c' acc in if ok then ins_tuple fs' l' acc' else VNo
      | VNo => VNo
      | VPanic => VPanic
      end
  | _, _ => VOk acc
  end.

(** the loop over an insert by name, core/dml/ins.rs:102-128 *)
Fixpoint ins_map (fs : fieldmap) (l : list (bytes * cell)) (acc : rfields) (n : N) : vr (rfields * N) :=
  match l with
  | [] => VOk (acc, n)
  | (k, c) :: l' =>
      match f_get k fs with
      | None => VNo
      | Some f =>
          match vt f c with
          | VOk c' => ins_map fs l' (fst (rf_insert k c' acc)) (n + 1)
          | VNo => VNo
          | VPanic => VPanic
          end
      end
  end.

(** core/dml/ins.rs:69-143 [prepare_insert]: key and the other fields *)
Definition prepare_insert (l : layout) (d : insdata) : vr (pkey * rfields) :=
  let fs := lo_fields l in
  let fc := N.of_nat (length fs) in
  let body :=
    match d with
    | InsTuple t =>
        if N.of_nat (length t) =? fc then ins_tuple fs t [] else VNo
    | InsMap m =>
        if N.of_nat (length m) =? fc then
          match ins_map fs m [] 0 with
          | VOk (r, n) => if n =? fc then VOk r else VNo
          | VNo => VNo
          | VPanic => VPanic
          end
        else VNo
    end in
  match body with
  | VOk r =>
      match aget bseq (lo_pk l) r with
      | Some c => VOk (cell_key c, adel bseq (lo_pk l) r)
      | None => VNo
      end
  | VNo => VNo
  | VPanic => VPanic
  end.

(** core/dml/ins.rs:49-66 [insert] inside core/mod.rs:174-198 [with_model_for_data_update] *)
Definition exec_insert (s : mst) (d : insdata) : mst * rout :=
  if m_iffy s then (s, RoErr ESys) else
  match prepare_insert (m_lay s) d with
  | VNo => (s, RoErr EValid)
  | VPanic => (s, RoPanic)
  | VOk (pk, r) =>
      let v := m_dver s in
      let s1 := bump_dver s in
      match aget pkey_eqb pk (m_idx s1) with
      | Some _ => (s1, RoErr EDup)
      | None =>
          let oid := length (m_objs s1) in
          let s2 := set_idx (aput pkey_eqb pk oid (m_idx s1))
                      (set_objs (m_objs s1 ++ [mk_row pk r v (sver s1)]) s1) in
          (enqueue (mk_dd v oid DkInsert) s2, RoOk)
      end
  end.

(** derived [PartialEq] of [TagUnique], data/tag.rs:139 *)
Definition tuniq_eqb (a b : tuniq) : bool :=
  match a, b with
  | TuUInt, TuUInt | TuSInt, TuSInt | TuBin, TuBin | TuStr, TuStr | TuIllegal, TuIllegal => true
  | _, _ => false
  end.

(** core/dml/mod.rs:57-72 [resolve_where]: only the clause on the primary key is looked at *)
Definition resolve_where (l : layout) (w : where_) : option lit :=
  match aget bseq (lo_pk l) w with
  | Some (OpEq, x) => if tuniq_eqb (lit_uniq x) (tsel_uniq (lo_ptag l)) then Some x else None
  | _ => None
  end.

(** core/dml/del.rs:44-70 [delete]: the version is taken before the clause is looked at *)
Definition exec_delete (s : mst) (w : where_) : mst * rout :=
  if m_iffy s then (s, RoErr ESys) else
  let v := m_dver s in
  let s1 := bump_dver s in
  match resolve_where (m_lay s) w with
  | None => (s1, RoErr EWhere)
  | Some x =>
      match aget pkey_eqb (lit_key x) (m_idx s1) with
      | None => (s1, RoErr ENoRow)
      | Some oid =>
          (enqueue (mk_dd v oid DkDelete) (set_idx (adel pkey_eqb (lit_key x) (m_idx s1)) s1), RoOk)
      end
  end.

(** result of an operator function: flag and new cell, or a panic, or undefined behaviour *)
Inductive opres := OrVal (ok : bool) (c : cell) | OrPanic | OrUb.

(** [u64::overflowing_*] used at core/dml/upd.rs:60-84: wrapped result and overflow flag; [None] is the
    division-by-zero panic *)
Definition u_arith (o : aop) (a b : N) : option (N * bool) :=
  match o with
  | AAssign => Some (b, false)
  | AAdd => Some ((a + b) mod two64, two64 <=? a + b)
  | ASub => Some ((a + two64 - b) mod two64, a <? b)
  | AMul => Some ((a * b) mod two64, two64 <=? a * b)
  | ADiv => if b =? 0 then None else Some (a / b, false)
  end.

(** does an integer fit [i64]? *)
Definition s64_fits (z : Z) : bool := ((-9223372036854775808 <=? z) && (z <=? 9223372036854775807))%Z.

(** [i64::overflowing_*] used at core/dml/upd.rs:86-110 *)
Definition s_arith (o : aop) (a b : N) : option (N * bool) :=
  let x := s64 a in
  let y := s64 b in
  match o with
  | AAssign => Some (b, false)
  | AAdd => Some (word (x + y), negb (s64_fits (x + y)))
  | ASub => Some (word (x - y), negb (s64_fits (x - y)))
  | AMul => Some (word (x * y), negb (s64_fits (x * y)))
  | ADiv => if (y =? 0)%Z then None else Some (word (Z.quot x y), negb (s64_fits (Z.quot x y)))
  end.

(** is the cell a word of the given class? *)
Definition word_of (k : tclass) (c : cell) : option (qsel * N) :=
  match c with
  | CQw q w => if tclass_eqb (tsel_class (qsel_tsel q)) k then Some (q, w) else None
  | _ => None
  end.

Section Exec.
(** IEEE double arithmetic on bit patterns ([+], [-], [*], [/] of [f64]) *)
Variable farith : aop -> N -> N -> N.
(** iteration order of a hash map of updated fields, see GnsModel.v *)
Variable order : fieldmap -> fieldmap.

(** core/dml/upd.rs:50-230 [OPERATOR], entry [5 * class + operator], applied to the stored cell and
    the literal, both of class [k] unless the stored cell is of another type than the field (then the
    accessors panic, or read through a bad pointer for binary and string) *)
Definition operator (k : tclass) (o : aop) (c : cell) (l : lit) : opres :=
  match k, l with
  | TcBool, LBool b => match o with AAssign => OrVal true (CBool b) | _ => OrVal false CNull end
  | TcUInt, LUInt b =>
      match word_of TcUInt c with
      | None => OrPanic
      | Some (q, a) =>
          match u_arith o a b with
          | None => OrPanic
          | Some (w, ovf) => OrVal (spec_check q w && negb ovf) (CQw q w)
          end
      end
  | TcSInt, LSInt b =>
      match word_of TcSInt c with
      | None => OrPanic
      | Some (q, a) =>
          match s_arith o a b with
          | None => OrPanic
          | Some (w, ovf) => OrVal (spec_check q w && negb ovf) (CQw q w)
          end
      end
  | TcFloat, LFloat b =>
      match word_of TcFloat c with
      | None => OrPanic
      | Some (q, a) =>
          let w := match o with AAssign => b | _ => farith o a b end in
          OrVal (spec_check q w) (CQw q w)
      end
  | TcBin, LBin b =>
      match o with
      | AAssign => OrVal true (CBin b)
      | AAdd => match c with CBin a | CStr a => OrVal true (CBin (a ++ b)) | _ => OrUb end
      | _ => OrVal false CNull
      end
  | TcStr, LStr b =>
      match o with
      | AAssign => OrVal true (CStr b)
      | AAdd => match c with CBin a | CStr a => OrVal true (CStr (a ++ b)) | _ => OrUb end
      | _ => OrVal false CNull
      end
  | _, _ => OrPanic
  end.

(** how the loop of [update] ends: all assignments done; an error with the saved values to restore; a
    panic with the fields as they are; undefined behaviour *)
Inductive upd_res := UrDone (m : rfields) | UrErr (e : rerr) (m : rfields) (saved : rfields) | UrPanic (m : rfields) | UrUb.

(** core/dml/upd.rs:282-356, the loop over the assignments. [rb] is [rollback_now]: line 318 updates it
    with [&=]. *)
Fixpoint upd_loop (fs : fieldmap) (asg : list assign) (rb : bool) (m saved : rfields) : upd_res :=
  if rb then UrErr EValid m saved else
  match asg with
  | [] => UrDone m
  | a :: asg' =>
      match f_get (as_lhs a) fs, aget bseq (as_lhs a) m with
      | Some fd, Some c =>
          match f_layers fd with
          | [] => UrPanic m
          | t :: rest =>
              let ka := tsel_class t in
              let kb := lit_class (as_rhs a) in
              if tclass_eqb ka kb && negb (tclass_eqb ka TcList) && cell_init c then
                match operator ka (as_op a) c (as_rhs a) with
                | OrVal ok new =>
                    upd_loop fs asg' (rb && negb ok) (rf_update (as_lhs a) new m)
                             (saved ++ [(as_lhs a, c)])
                | OrPanic => UrPanic m
                | OrUb => UrUb
                end
              else if tclass_eqb ka kb && negb (cell_init c)
                      && match as_op a with AAssign => true | _ => false end then
                upd_loop fs asg' rb (rf_update (as_lhs a) (lit_cell (as_rhs a)) m)
                         (saved ++ [(as_lhs a, c)])
              else if tclass_eqb ka TcList && match as_op a with AAdd => true | _ => false end then
                match rest with
                | [] => UrPanic m
                | t1 :: _ =>
                    if tclass_eqb (tsel_class t1) kb then
                      match c with
                      | CList xs =>
                          upd_loop fs asg' rb
                            (rf_update (as_lhs a) (CList (xs ++ [lit_cell (as_rhs a)])) m) saved
                      | _ => UrUb
                      end
                    else UrErr EValid m saved
                end
              else UrErr EValid m saved
          end
      | _, _ => UrErr EField m saved
      end
  end.

(** core/dml/upd.rs:357-364: restoring the saved values, first saved first *)
Definition rollback (m saved : rfields) : rfields :=
  fold_left (fun m kv => rf_update (fst kv) (snd kv) m) saved m.

(** core/dml/upd.rs:281-364: the loop followed by the rollback; the fields of the row afterwards *)
Definition update_row (fs : fieldmap) (m : rfields) (asg : list assign) : rfields * rout :=
  match upd_loop fs asg false m [] with
  | UrDone m' => (m', RoOk)
  | UrErr e m' saved => (rollback m' saved, RoErr e)
  | UrPanic m' => (m', RoPanic)
  | UrUb => (m, RoUb)
  end.

(** the fields of an object replaced *)
Definition with_fields (m : rfields) (o : rowobj) : rowobj := mk_row (ro_key o) m (ro_rev o) (ro_sv o).

(** core/dml/upd.rs:260-374 [update]. Schema deltas are not applied to the row first. *)
Definition exec_update (s : mst) (w : where_) (asg : list assign) : mst * rout :=
  if m_iffy s then (s, RoErr ESys) else
  match resolve_where (m_lay s) w with
  | None => (s, RoErr EWhere)
  | Some x =>
      match aget pkey_eqb (lit_key x) (m_idx s) with
      | None => (s, RoErr ENoRow)
      | Some oid =>
          match nth_error (m_objs s) oid with
          | None => (s, RoUb)
          | Some o =>
              let v := m_dver s in
              let s1 := bump_dver s in
              match update_row (lo_fields (m_lay s)) (ro_fields o) asg with
              | (m, RoOk) =>
                  (enqueue (mk_dd v oid DkUpdate)
                     (set_objs (upd_nth oid (mk_row (ro_key o) m v (ro_sv o)) (m_objs s1)) s1), RoOk)
              | (m, r) => (set_objs (upd_nth oid (with_fields m o) (m_objs s1)) s1, r)
              end
          end
      end
  end.

(** the columns of a row in the given order: core/dml/sel.rs:193-216; [None] is [QExecUnknownField] *)
Fixpoint read_cols (pk : bytes) (pkc : cell) (m : rfields) (cols : list bytes) : option (list cell) :=
  match cols with
  | [] => Some []
  | k :: cols' =>
      match (match aget bseq k m with Some c => Some c | None => if bseq k pk then Some pkc else None end) with
      | None => None
      | Some c => match read_cols pk pkc m cols' with Some cs => Some (c :: cs) | None => None end
      end
  end.

(** core/dml/sel.rs:176-219 [select_custom]; the key column is the literal itself with its own tag
    (data/cell.rs:516-524) *)
Definition exec_select (s : mst) (w : where_) (cols : option (list bytes)) : mst * rout :=
  match resolve_where (m_lay s) w with
  | None => (s, RoErr EWhere)
  | Some x =>
      match aget pkey_eqb (lit_key x) (m_idx s) with
      | None => (s, RoErr ENoRow)
      | Some oid =>
          match nth_error (m_objs s) oid with
          | None => (s, RoUb)
          | Some o =>
              let o1 := resolve (m_sd s) o in
              let s1 := set_objs (upd_nth oid o1 (m_objs s)) s in
              let cs := match cols with None => map fst (lo_fields (m_lay s)) | Some l => l end in
              match read_cols (lo_pk (m_lay s)) (lit_cell x) (ro_fields o1) cs with
              | None => (s1, RoErr EField)
              | Some l => (s1, RoRow l)
              end
          end
      end
  end.

(** the columns of one row of SELECT ALL: core/dml/sel.rs:101-111, 127-135; [None] is the panic of
    [unwrap] *)
Fixpoint read_cols_all (pk : bytes) (pkc : cell) (m : rfields) (cols : list bytes) : option (list cell) :=
  match cols with
  | [] => Some []
  | k :: cols' =>
      match (if bseq k pk then Some pkc else aget bseq k m) with
      | None => None
      | Some c => match read_cols_all pk pkc m cols' with Some cs => Some (c :: cs) | None => None end
      end
  end.

(** the rows of SELECT ALL one after the other: core/dml/sel.rs:98-139 with the iterator of 221-265 *)
Fixpoint scan_rows (l : layout) (sd : list sdelta) (cols : list bytes) (ids : list nat)
         (objs : list rowobj) : list rowobj * vr (list (list cell)) :=
  match ids with
  | [] => (objs, VOk [])
  | i :: ids' =>
      match nth_error objs i with
      | None => (objs, VPanic)
      | Some o =>
          let o1 := resolve sd o in
          let objs1 := upd_nth i o1 objs in
          match read_cols_all (lo_pk l) (pk_cell (lo_ptag l) (ro_key o1)) (ro_fields o1) cols with
          | None => (objs1, VPanic)
          | Some r =>
              let '(objs2, rs) := scan_rows l sd cols ids' objs1 in
              (objs2, match rs with VOk rs => VOk (r :: rs) | VNo => VNo | VPanic => VPanic end)
          end
      end
  end.

(** core/dml/sel.rs:86-140 [select_all]. The order of rows is the iteration order of the index, here
    that of the finite map. *)
Definition exec_select_all (s : mst) (cols : option (list bytes)) (limit : N) : mst * rout :=
  let fs := lo_fields (m_lay s) in
  let bad := match cols with
             | None => false
             | Some l => Nat.ltb (length fs) (length l) || existsb (fun k => negb (f_has k fs)) l
             end in
  if bad then (s, RoErr EField) else
  let cs := match cols with None => map fst fs | Some l => l end in
  let ids := firstn (N.to_nat (N.min limit (N.of_nat (length (m_idx s))))) (map snd (m_idx s)) in
  let '(objs, r) := scan_rows (m_lay s) (m_sd s) cs ids (m_objs s) in
  (set_objs objs s, match r with VOk rows => RoRows rows | _ => RoPanic end).

(** ALTER MODEL on a model with rows, core/model/alt.rs:249-327: the plan and the field changes are
    those of GnsModel.v; a schema delta is appended per added or removed field
    (core/model/mod.rs:470-497) *)
Definition exec_alter (s : mst) (k : alter_kind) (commit_ok : bool) : mst * rout :=
  let mm := mk_mmodel (m_lay s) (N.of_nat (sver s)) in
  match fdeltas order mm k with
  | None => (s, RoPanic)
  | Some (inl e) => (s, RoErr (EAlter e))
  | Some (inr (nl, a)) =>
      if negb nl then (s, RoErr (EAlter ErrNeedLock)) else
      match a with
      | AaIgnore => (s, RoOk)
      | AaAdd fs =>
          if commit_ok
          then (set_schema (md_lay (live_add fs mm)) (m_sd s ++ map (fun kv => SdAdd (fst kv)) fs) s, RoOk)
          else (s, RoErr ESys)
      | AaRemove ks =>
          if commit_ok
          then (set_schema (md_lay (live_rem ks mm)) (m_sd s ++ map SdRem ks) s, RoOk)
          else (s, RoErr ESys)
      | AaUpdate fs =>
          if commit_ok then (set_schema (md_lay (live_upd fs mm)) (m_sd s) s, RoOk) else (s, RoErr ESys)
      end
  end.

(** one statement, by the definitions above (core/dml) *)
Definition rstep (s : mst) (q : rstmt) : mst * rout :=
  match q with
  | RInsert d => exec_insert s d
  | RUpdate w asg => exec_update s w asg
  | RDelete w => exec_delete s w
  | RSelect w cols => exec_select s w cols
  | RSelectAll cols limit => exec_select_all s cols limit
  | RAlter k ok => exec_alter s k ok
  end.

(** a history of statements with their outcomes; it ends at undefined behaviour *)
Inductive rhist : mst -> list (rstmt * rout) -> mst -> Prop :=
| rh_nil s : rhist s [] s
| rh_snoc s h s1 q s2 r : rhist s h s1 -> rstep s1 q = (s2, r) -> r <> RoUb -> rhist s (h ++ [(q, r)]) s2.
End Exec.
