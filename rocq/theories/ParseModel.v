(** The DML parsers: [ql/ast/mod.rs] (parse state), [ql/dml/mod.rs] (WHERE), [ql/dml/ins.rs],
    [ql/dml/sel.rs], [ql/dml/upd.rs], [ql/dml/del.rs]. All paths are below
    /repo/server/src/engine/. *)
From Coq Require Import Strings.String List NArith Bool Arith.
From Verif Require Import Bytes DataModel RowModel LexModel.
Import ListNotations.

(* ------------------------------------------------------------------ *)
(** * Parse state *)

(** [State], ql/ast/mod.rs:48-54, without the current space (a parameter below). The cursor [i] is
    represented by the tokens not yet consumed; the flag [f] by [okay]. The data source [d] is
    always [InplaceData] (ql/ast/mod.rs:355-382): literals are tokens. [round_cursor] (316-318)
    clamps the cursor to the last token and every user of it also requires that clamping changed
    nothing (or [has_remaining]), so that a rounded test is a test of the remaining tokens. The
    token list as a whole is never empty here: the statement keyword was read before. *)
Record pst := mk_pst { rest : list token; okay : bool }.

(** [QueryError::QLUnexpectedEndOfStatement], [QLInvalidSyntax], [QLInvalidCollectionSyntax],
    [QLInvalidTypeDefinitionSyntax], [QLExpectedStatement], [QLExpectedEntity],
    [QLUnknownStatement], error.rs:57-71 *)
Inductive perr := EEnd | ESyntax | ECollection | ETypeDef | EExpStmt | EExpEntity | EUnknown.

(** the result of a parser. [PPanic] is Rust's index-out-of-bounds panic, [PUb] is an unchecked
    read of a token of another kind (undefined behaviour); [PFuel] is only in the model: the proofs
    show that it never happens. *)
Inductive pres (A : Type) := POk (a : A) | PErr (e : perr) | PPanic | PUb | PFuel.
Arguments POk {A}. Arguments PErr {A}. Arguments PPanic {A}. Arguments PUb {A}. Arguments PFuel {A}.

(** sequencing: an error, panic or undefined behaviour ends the parser *)
Definition pbind {A B} (r : pres A) (f : A -> pres B) : pres B :=
  match r with POk a => f a | PErr e => PErr e | PPanic => PPanic | PUb => PUb | PFuel => PFuel end.

(** [poison_if_not], ql/ast/mod.rs:163-166 *)
Definition need (b : bool) (s : pst) : pst := mk_pst (rest s) (okay s && b).
(** [poison], ql/ast/mod.rs:154-156 *)
Definition poison (s : pst) : pst := mk_pst (rest s) false.
(** [cursor_ahead_by], ql/ast/mod.rs:174-176. The parsers never move beyond the end. *)
Definition ahead (n : nat) (s : pst) : pst := mk_pst (skipn n (rest s)) (okay s).
(** [cursor_ahead_if], ql/ast/mod.rs:179-181 *)
Definition ahead_if (b : bool) (s : pst) : pst := if b then ahead 1 s else s.
(** [remaining], ql/ast/mod.rs:198-200 *)
Definition remaining (s : pst) : nat := length (rest s).
(** [loop_tt], ql/ast/mod.rs:298-300 ([not_exhausted && okay]) *)
Definition going (s : pst) : bool := match rest s with nil => false | _ => okay s end.

(** the tokens the parsers compare with, [Token![..]], engine/macros.rs:115-190 *)
Definition is_sym (k : sym) (t : token) : bool :=
  match t with
  | TSym j =>
      match k, j with
      | SComma, SComma | SColon, SColon | SPeriod, SPeriod | SAt, SAt | SNot, SNot
      | SAssign, SAssign | SAdd, SAdd | SSub, SSub | SMul, SMul | SDiv, SDiv | SLt, SLt | SGt, SGt
      | SOpenParen, SOpenParen | SCloseParen, SCloseParen | SOpenSq, SOpenSq | SCloseSq, SCloseSq
      | SOpenBrace, SOpenBrace | SCloseBrace, SCloseBrace => true
      | _, _ => false
      end
  | _ => false
  end.
(** likewise for keywords *)
Definition is_misc (k : kmisc) (t : token) : bool :=
  match t with
  | TKw (KMisc j) =>
      match k, j with
      | KmInto, KmInto | KmFrom, KmFrom | KmWhere, KmWhere | KmAnd, KmAnd | KmSet, KmSet
      | KmLimit, KmLimit | KmNull, KmNull | KmAll, KmAll | KmWith, KmWith | KmType, KmType
      | KmPrimary, KmPrimary | KmIf, KmIf | KmNot, KmNot | KmAllow, KmAllow | KmSpace, KmSpace
      | KmModel, KmModel | KmAdd, KmAdd | KmRemove, KmRemove => true
      | _, _ => false
      end
  | _ => false
  end.
(** [Token::is_ident] *)
Definition is_ident (t : token) : bool := match t with TId _ => true | _ => false end.
(** [Token::is_lit] through [can_read_lit_from], ql/ast/mod.rs:366-368 *)
Definition is_lit (t : token) : bool := match t with TLit _ => true | _ => false end.

(** [cursor_rounded_eq], ql/ast/mod.rs:253-256: false at the end *)
Definition next_is (p : token -> bool) (s : pst) : bool :=
  match rest s with t :: _ => p t | nil => false end.
(** [cursor_eq], ql/ast/mod.rs:259-261: panics at the end *)
Definition cur_is (p : token -> bool) (s : pst) : pres bool :=
  match rest s with t :: _ => POk (p t) | nil => PPanic end.
(** [fw_read], ql/ast/mod.rs:203-207: panics at the end *)
Definition fw_read (s : pst) : pres (token * pst) :=
  match rest s with t :: r => POk (t, mk_pst r (okay s)) | nil => PPanic end.

(** [EntityIDRef]: space and model *)
Definition entity := (bytes * bytes)%type.

(** [try_entity_buffered_into_state_uninit], ql/ast/mod.rs:89-106: looks at three tokens whatever
    they are. An entity left uninitialised is [None]; the state is then poisoned. *)
Definition entity_buffered (cs : option bytes) (s : pst) : pres (option entity * pst) :=
  match rest s with
  | a :: b :: c :: r =>
      match a, is_sym SPeriod b, c with
      | TId x, true, TId y => POk (Some (x, y), mk_pst r (okay s))
      | TId x, _, _ =>
          match cs with
          | Some sp => POk (Some (sp, x), mk_pst (b :: c :: r) (okay s))
          | None => POk (None, poison s)
          end
      | _, _, _ => POk (None, poison s)
      end
  | _ => PPanic
  end.

(* ------------------------------------------------------------------ *)
(** * Producer functions *)

(** ql/dml/ins.rs:87-91 [PRODUCER_F] *)
Inductive prodfn := FUuidStr | FUuidBin | FTimeSec.
(** the table's entries *)
Definition prod_lut : list (bytes * prodfn) :=
  [(bstr "uuidstr"%string, FUuidStr); (bstr "uuidbin"%string, FUuidBin);
   (bstr "timesec"%string, FTimeSec)].
(** ql/dml/ins.rs:86 [PRODUCER_G] *)
Definition prod_g : list N := [0; 2; 3; 0]%N.
(** ql/dml/ins.rs:92-94 [MAGIC_1], [MAGIC_2] *)
Definition prod_m1 : bytes := bstr "cp21rLd"%string.
(** ql/dml/ins.rs:94 [MAGIC_2] *)
Definition prod_m2 : bytes := bstr "zS8zgaK"%string.

(** ql/dml/ins.rs:98-106 [hashf]. The [u32] sum may wrap; 4 divides 2^32, so the remainder is that
    of the exact sum. *)
Fixpoint prod_sum (m : bytes) (i : nat) (key : bytes) : N :=
  match key with
  | nil => 0%N
  | k :: t => (b2n (nth (i mod 7) m x00) * b2n k + prod_sum m (S i) t)%N
  end.
(** ql/dml/ins.rs:98-106 *)
Definition prod_hashf (m key : bytes) : N := (prod_sum m 0 key mod 4)%N.
(** ql/dml/ins.rs:108-111 [hashp] *)
Definition prod_hashp (key : bytes) : N :=
  ((tbl prod_g (prod_hashf prod_m1 key) + tbl prod_g (prod_hashf prod_m2 key)) mod 4)%N.
(** ql/dml/ins.rs:113-125 [ldfunc] *)
Definition ldfunc (key : bytes) : option prodfn :=
  match nth_error prod_lut (N.to_nat (N.min (prod_hashp key) 2)) with
  | Some (nm, f) => if bseq nm key then Some f else None
  | None => None
  end.

Section Parse.
(** What the producer functions return (ql/dml/ins.rs:74-85): random identifiers and the clock. The
    argument is the number of tokens left after the call, so that each call has its own value. *)
Variable uuid_text : nat -> bytes.
Variable uuid_bin : nat -> bytes.
Variable now_secs : nat -> N.

(** ql/dml/ins.rs:74-85 [pfn_timesec], [pfn_uuidstr], [pfn_uuidbin] *)
Definition run_prod (f : prodfn) (left : nat) : cell :=
  match f with
  | FUuidStr => CStr (uuid_text left)
  | FUuidBin => CBin (uuid_bin left)
  | FTimeSec => CQw QU64 (now_secs left)
  end.

(** [cursor_signature_match_fn_arity0_rounded], ql/ast/mod.rs:280-285, with the function's name *)
Definition fn_sig (s : pst) : option bytes :=
  match rest s with
  | TId f :: a :: b :: _ => if is_sym SOpenParen a && is_sym SCloseParen b then Some f else None
  | _ => None
  end.
(** [handle_func_sub], ql/dml/ins.rs:189-193, after the signature was matched *)
Definition call_fn (f : bytes) (s : pst) : option cell * pst :=
  let s' := ahead 3 s in (option_map (fun p => run_prod p (remaining s')) (ldfunc f), s').

(* ------------------------------------------------------------------ *)
(** * INSERT *)

(** [Option<TagClass>] comparison *)
Definition dscr_eqb (a b : option tclass) : bool :=
  match a, b with
  | None, None => true
  | Some x, Some y => tclass_eqb x y
  | _, _ => false
  end.
(** the check on nested lists, ql/dml/ins.rs:148-152 *)
Definition nested_ok (prev d : option tclass) : bool :=
  match prev with None => true | _ => match d with None => true | _ => dscr_eqb prev d end end.
(** ql/dml/ins.rs:153-155 *)
Definition nested_next (prev d : option tclass) : option tclass :=
  match prev, d with None, Some _ => d | _, _ => prev end.
(** ql/dml/ins.rs:177 *)
Definition same_kind (l : list cell) (d : cell) : bool :=
  match l with nil => true | x :: _ => tclass_eqb (cell_class d) (cell_class x) end.

(** what follows an element, ql/dml/ins.rs:180-184, 233-237, 297-301: a comma or the closing
    bracket, consumed if the state is okay; the boolean is [stop] *)
Definition after_elem (close : sym) (s : pst) : bool * pst :=
  let c := next_is (is_sym SComma) s in
  let e := next_is (is_sym close) s in
  let s1 := need (c || e) s in
  (e, ahead_if (okay s1) s1).

(** [parse_list], ql/dml/ins.rs:127-187: [list_loop] is the loop (131-185), called on an okay or
    poisoned state with the elements so far, the class of the last element and the class seen in
    nested lists; [parse_list] the head (131-132). The recursion depth is bounded by fuel. *)
Fixpoint list_loop (fuel : nat) (l : list cell) (overall prev : option tclass) (s : pst)
  : pres (list cell * option tclass * pst) :=
  match fuel with
  | O => PFuel
  | S n =>
      if negb (going s) then POk (l, overall, s)
      else
        let elem :=
          match rest s with
          | nil => PPanic
          | TLit x :: r => POk (Some (lit_cell x, prev, mk_pst r (okay s)), s)
          | TSym SOpenSq :: r =>
              let nested :=
                match r with
                | nil => PPanic
                | TSym SCloseSq :: r' => POk (nil, None, mk_pst r' (okay s))
                | _ => list_loop n nil None None (mk_pst r (okay s))
                end in
              pbind nested (fun x =>
                let '(nl, d, s1) := x in
                POk (Some (CList nl, nested_next prev d, need (nested_ok prev d) s1), s1))
          | TSym SAt :: r =>
              match fn_sig (mk_pst r (okay s)) with
              | Some f =>
                  let '(v, s1) := call_fn f (mk_pst r (okay s)) in
                  match v with
                  | Some c => POk (Some (c, prev, s1), s1)
                  | None => POk (None, poison s1)
                  end
              | None => POk (None, poison s)
              end
          | _ => POk (None, poison s)
          end in
        pbind elem (fun x =>
          match x with
          | (None, s1) => POk (l, overall, s1)
          | (Some (d, prev', s1), _) =>
              let s2 := need (same_kind l d) s1 in
              let '(stop, s3) := after_elem SCloseSq s2 in
              if stop then POk (l ++ [d], Some (cell_class d), s3)
              else list_loop n (l ++ [d]) (Some (cell_class d)) prev' s3
          end)
  end.
(** ql/dml/ins.rs:127-187, from its start *)
Definition parse_list (s : pst) : pres (list cell * option tclass * pst) :=
  match rest s with
  | nil => PPanic
  | TSym SCloseSq :: r => POk (nil, None, mk_pst r (okay s))
  | _ => list_loop (S (remaining s)) nil None None s
  end.

(** a value of a tuple, ql/dml/ins.rs:206-231; [None] is the [break] *)
Definition tuple_elem (s : pst) : pres (option cell * pst) :=
  match rest s with
  | nil => PPanic
  | TLit x :: r => POk (Some (lit_cell x), mk_pst r (okay s))
  | TSym SOpenSq :: ((_ :: _) as r) =>
      pbind (parse_list (mk_pst r (okay s))) (fun x =>
        let '(l, _, s1) := x in POk (Some (CList l), s1))
  | TKw (KMisc KmNull) :: r => POk (Some CNull, mk_pst r (okay s))
  | TSym SAt :: r =>
      match fn_sig (mk_pst r (okay s)) with
      | Some f =>
          let '(v, s1) := call_fn f (mk_pst r (okay s)) in
          match v with Some c => POk (Some c, s1) | None => POk (None, poison s1) end
      | None => POk (None, poison s)
      end
  | _ => POk (None, poison s)
  end.
(** [parse_data_tuple_syntax], ql/dml/ins.rs:197-240 *)
Fixpoint tuple_loop (fuel : nat) (data : list cell) (s : pst) : pres (list cell * pst) :=
  match fuel with
  | O => PFuel
  | S n =>
      if negb (going s) then POk (data, s)
      else
        pbind (tuple_elem s) (fun x =>
          match x with
          | (None, s1) => POk (data, s1)
          | (Some c, s1) =>
              let '(stop, s2) := after_elem SCloseParen s1 in
              if stop then POk (data ++ [c], s2) else tuple_loop n (data ++ [c]) s2
          end)
  end.
(** ql/dml/ins.rs:197-240, from its start *)
Definition parse_tuple (s : pst) : pres (list cell * pst) :=
  pbind (cur_is (is_sym SCloseParen) s) (fun stop =>
    if stop then POk (nil, ahead 1 s) else tuple_loop (S (remaining s)) nil s).

(** [HashMap::insert] of a new key: the keys seen so far *)
Definition has_key {A} (k : bytes) (m : list (bytes * A)) : bool :=
  existsb (fun p => bseq (fst p) k) m.

(** the value of a map entry, ql/dml/ins.rs:254-291: [s0] is the state before the entry (for
    [cursor_back_by(3)]), [s] the state after the colon and the value's first token [t] *)
Definition map_value (s0 : pst) (t : token) (s : pst) : pres (option cell * pst) :=
  match t with
  | TLit x => POk (Some (lit_cell x), s)
  | TKw (KMisc KmNull) => POk (Some CNull, s)
  | TSym SOpenSq =>
      match rest s with
      | nil => POk (None, poison s0)
      | _ => pbind (parse_list s) (fun x => let '(l, _, s1) := x in POk (Some (CList l), s1))
      end
  | TSym SAt =>
      match fn_sig s with
      | Some f =>
          let '(v, s1) := call_fn f s in
          match v with Some c => POk (Some c, s1) | None => POk (None, poison s1) end
      | None => POk (None, poison s0)
      end
  | _ => POk (None, poison s0)
  end.
(** [parse_data_map_syntax], ql/dml/ins.rs:242-303. The [HashMap] is the list of its entries in
    the order written; a repeated key poisons the state. *)
Fixpoint map_loop (fuel : nat) (data : list (bytes * cell)) (s : pst)
  : pres (list (bytes * cell) * pst) :=
  match fuel with
  | O => PFuel
  | S n =>
      match rest s with
      | field :: colon :: expr :: r =>
          if negb (okay s) then POk (data, s)
          else
            let s1 := need (is_sym SColon colon) (mk_pst r (okay s)) in
            match field with
            | TId k =>
                pbind (map_value (poison s) expr s1) (fun x =>
                  match x with
                  | (None, s2) => POk (data, s2)
                  | (Some c, s2) =>
                      let s3 := need (negb (has_key k data)) s2 in
                      let '(stop, s4) := after_elem SCloseBrace s3 in
                      if stop then POk (data ++ [(k, c)], s4)
                      else map_loop n (data ++ [(k, c)]) s4
                  end)
            | _ => POk (data, poison s)
            end
      | _ => POk (data, s)
      end
  end.
(** ql/dml/ins.rs:242-303, from its start *)
Definition parse_map (s : pst) : pres (list (bytes * cell) * pst) :=
  pbind (cur_is (is_sym SCloseBrace) s) (fun stop =>
    if stop then POk (nil, ahead 1 s) else map_loop (S (remaining s)) nil s).

(** [InsertStatement] *)
Record insert_stmt := mk_ins { in_entity : entity; in_data : insdata }.

(** the end of every parser: the node if the state is okay ([entity.assume_init()] is then
    initialised), else a syntax error *)
Definition finish {A} (e : option entity) (s : pst) (f : entity -> A) : pres (A * pst) :=
  if okay s then match e with Some e => POk (f e, s) | None => PUb end else PErr ESyntax.

(** [parse_insert], ql/dml/ins.rs:344-390 *)
Definition parse_insert (cs : option bytes) (s : pst) : pres (insert_stmt * pst) :=
  if (remaining s <? 5)%nat then PErr EEnd
  else
    pbind (cur_is (is_misc KmInto) s) (fun b =>
    let s := ahead 1 (need b s) in
    pbind (entity_buffered cs s) (fun '(e, s) =>
    pbind (fw_read s) (fun '(t, s) =>
    match t, rest s with
    | TSym SOpenParen, _ :: _ =>
        pbind (parse_tuple s) (fun '(d, s) => finish e s (fun e => mk_ins e (InsTuple d)))
    | TSym SOpenBrace, _ :: _ =>
        pbind (parse_map s) (fun '(d, s) => finish e s (fun e => mk_ins e (InsMap d)))
    | _, _ => PErr ESyntax
    end))).

(** [parse_from_state_hardened], ql/ast/traits.rs:44-63, with the constants of the five DML nodes
    (MUST_USE_FULL_TOKEN_RANGE and not VERIFIES_FULL_TOKEN_RANGE_USAGE): leftover tokens are an
    error *)
Definition hardened {A} (r : pres (A * pst)) : pres A :=
  pbind r (fun '(a, s) => match rest s with nil => POk a | _ => PErr ESyntax end).

(** the tokens after the statement's keyword, as [core/exec.rs] passes them on *)
Definition start (ts : list token) : pst := mk_pst ts true.
(** INSERT on the tokens after its keyword, as passed on by core/exec.rs *)
Definition insert_of (cs : option bytes) (ts : list token) : pres insert_stmt :=
  hardened (parse_insert cs (start ts)).

End Parse.

(* ------------------------------------------------------------------ *)
(** * WHERE *)

(** [parse_operator], ql/dml/mod.rs:84-96. At least two tokens are left here ([try_parse] checked
    for three). No operator poisons and skips two tokens ([opc & 1 == 0]). *)
Definition parse_operator (s : pst) : pres (option relop * pst) :=
  match rest s with
  | a :: b :: r =>
      let two o := POk (Some o, mk_pst r (okay s)) in
      let one o := POk (Some o, mk_pst (b :: r) (okay s)) in
      if is_sym SAssign a then one OpEq
      else if is_sym SNot a && is_sym SAssign b then two OpNe
      else if is_sym SGt a && is_sym SAssign b then two OpGe
      else if is_sym SGt a then one OpGt
      else if is_sym SLt a && is_sym SAssign b then two OpLe
      else if is_sym SLt a then one OpLt
      else POk (None, mk_pst r false)
  | _ => PPanic
  end.
(** [RelationalExpr::try_parse], ql/dml/mod.rs:98-117: with fewer than three tokens left there is no
    expression and the state stays as it is *)
Definition try_rel (s : pst) : pres (option (bytes * (relop * lit)) * pst) :=
  if (remaining s <? 3)%nat then POk (None, s)
  else
    pbind (fw_read s) (fun '(t, s) =>
    let s := need (is_ident t) s in
    pbind (parse_operator s) (fun '(o, s) =>
    let s := need (next_is is_lit s) s in
    if okay s then
      match t, o, rest s with
      | TId k, Some o, TLit l :: r => POk (Some (k, (o, l)), mk_pst r true)
      | _, _, _ => PUb
      end
    else POk (None, s))).

(** [parse_where_and_append_to], ql/dml/mod.rs:137-149. The [HashMap] is the list of its entries in
    the order written; a repeated column poisons the state. *)
Fixpoint where_loop (fuel : nat) (c : where_) (s : pst) : pres (where_ * pst) :=
  match fuel with
  | O => PFuel
  | S n =>
      if negb (going s) then POk (c, s)
      else
        pbind (try_rel s) (fun '(x, s) =>
        let '(c, s) :=
          match x with
          | Some (k, e) => (c ++ [(k, e)], need (negb (has_key k c)) s)
          | None => (c, s)
          end in
        if next_is (is_misc KmAnd) s then where_loop n c (ahead 1 s) else POk (c, s))
  end.
(** ql/dml/mod.rs:137-149, from its start *)
Definition parse_where (s : pst) : pres (where_ * pst) := where_loop (S (remaining s)) nil s.
(** [poison_if(clauses.is_empty())], ql/dml/mod.rs:158, sel.rs:138, upd.rs:195 *)
Definition nonempty_where (w : where_) (s : pst) : pst :=
  need (match w with nil => false | _ => true end) s.

(* ------------------------------------------------------------------ *)
(** * SELECT, SELECT ALL *)

(** the field list, ql/dml/sel.rs:112-127 and 188-203 (the same code twice) *)
Fixpoint fields_loop (fuel : nat) (fs : list bytes) (s : pst) : pres (list bytes * pst) :=
  match fuel with
  | O => PFuel
  | S n =>
      if negb (going s) then POk (fs, s)
      else
        match rest s with
        | TId k :: r =>
            let s1 := mk_pst r (okay s) in
            let c := next_is (is_sym SComma) s1 in
            let f := next_is (is_misc KmFrom) s1 in
            fields_loop n (fs ++ [k]) (ahead_if c (need (c || f) s1))
        | _ => POk (fs, s)
        end
  end.
(** ql/dml/sel.rs:112-127, 188-203, from its start *)
Definition parse_fields (s : pst) : pres (bool * list bytes * pst) :=
  pbind (cur_is (is_sym SMul) s) (fun w =>
    if w then POk (true, nil, ahead 1 s)
    else pbind (fields_loop (S (remaining s)) nil s) (fun '(fs, s) =>
      POk (false, fs, need (match fs with nil => false | _ => true end) s))).

(** [SelectStatement]; [None] for the wildcard *)
Record select_stmt := mk_sel { se_entity : entity; se_fields : option (list bytes); se_where : where_ }.
(** the fields, or none for the wildcard *)
Definition sel_fields (w : bool) (fs : list bytes) : option (list bytes) := if w then None else Some fs.

(** [parse_select], ql/dml/sel.rs:101-155 *)
Definition parse_select (cs : option bytes) (s : pst) : pres (select_stmt * pst) :=
  if (remaining s <? 3)%nat then PErr EEnd
  else
    pbind (parse_fields s) (fun '(w, fs, s) =>
    if ((remaining s <? 2)%nat || negb (okay s)) then PErr ESyntax
    else
      pbind (cur_is (is_misc KmFrom) s) (fun b =>
      let s := ahead 1 (need b s) in
      pbind (entity_buffered cs s) (fun '(e, s) =>
      pbind (if next_is (is_misc KmWhere) s
             then pbind (parse_where (ahead 1 s)) (fun '(c, s) => POk (c, nonempty_where c s))
             else POk (nil, s)) (fun '(c, s) =>
      finish e s (fun e => mk_sel e (sel_fields w fs) c))))).

(** [SelectAllStatement] *)
Record select_all_stmt := mk_sela { sa_entity : entity; sa_fields : option (list bytes); sa_limit : N }.
(** [SelectAllStatement::parse], ql/dml/sel.rs:181-232; [uck_read_lit] on a token that is not a
    literal is undefined behaviour *)
Definition parse_select_all (cs : option bytes) (s : pst) : pres (select_all_stmt * pst) :=
  if (remaining s <? 5)%nat then PErr EEnd
  else
    pbind (parse_fields s) (fun '(w, fs, s) =>
    if (remaining s <? 4)%nat then PErr EEnd
    else
      pbind (cur_is (is_misc KmFrom) s) (fun b =>
      let s := ahead 1 (need b s) in
      pbind (entity_buffered cs s) (fun '(e, s) =>
      let s := need (next_is (is_misc KmLimit) s) s in
      let s := ahead_if (okay s) s in
      let s := need (match rest s with nil => false | _ => true end) s in
      if okay s then
        match rest s with
        | TLit l :: r =>
            match l with
            | LUInt n => finish e (mk_pst r (okay s)) (fun e => mk_sela e (sel_fields w fs) n)
            | _ => PErr ESyntax
            end
        | _ => PUb
        end
      else PErr ESyntax))).

(* ------------------------------------------------------------------ *)
(** * UPDATE, DELETE *)

(** the operator's first token, ql/dml/upd.rs:87-92 and [OPERATOR] (37-44) *)
Definition asg_op (t : token) : option aop :=
  if is_sym SAssign t then Some AAssign
  else if is_sym SAdd t then Some AAdd
  else if is_sym SSub t then Some ASub
  else if is_sym SMul t then Some AMul
  else if is_sym SDiv t then Some ADiv
  else None.
(** [parse_and_append_expression], ql/dml/upd.rs:74-122 *)
Definition parse_assign (es : list assign) (s : pst) : pres (list assign * pst) :=
  if (remaining s <? 3)%nat then POk (es, poison s)
  else
    pbind (fw_read s) (fun '(lhs, s) =>
    let s := need (is_ident lhs) s in
    pbind (fw_read s) (fun '(t, s) =>
    let op := asg_op t in
    let s := need (match op with Some _ => true | None => false end) s in
    let is_asg := match op with Some AAssign => true | _ => false end in
    let has_double := next_is (is_sym SAssign) s in
    let double_ok := negb is_asg && has_double in
    let single_ok := is_asg && negb double_ok in
    let s := ahead_if double_ok (need (single_ok || double_ok) s) in
    let s := need (next_is is_lit s) s in
    if okay s then
      match lhs, op, rest s with
      | TId k, Some o, TLit l :: r => POk (es ++ [mk_as k o l], mk_pst r true)
      | _, _, _ => PUb
      end
    else POk (es, s))).
(** the assignments, ql/dml/upd.rs:181-189; the boolean is [nx_where] *)
Fixpoint assign_loop (fuel : nat) (es : list assign) (w : bool) (s : pst)
  : pres (list assign * bool * pst) :=
  match fuel with
  | O => PFuel
  | S n =>
      if negb (going s) || w then POk (es, w, s)
      else
        pbind (parse_assign es s) (fun '(es, s) =>
        let c := next_is (is_sym SComma) s in
        let w := next_is (is_misc KmWhere) s in
        assign_loop n es w (ahead_if c (need (c || w) s)))
  end.

(** [UpdateStatement] *)
Record update_stmt := mk_upd { up_entity : entity; up_set : list assign; up_where : where_ }.
(** [parse_update], ql/dml/upd.rs:162-214. The [impossible!()] (171-176) needs fewer than six tokens
    after at most three of at least nine. *)
Definition parse_update (cs : option bytes) (s : pst) : pres (update_stmt * pst) :=
  if (remaining s <? 9)%nat then PErr EEnd
  else
    pbind (entity_buffered cs s) (fun '(e, s) =>
    if (remaining s <? 6)%nat then PUb
    else
      pbind (cur_is (is_misc KmSet) s) (fun b =>
      let s := ahead 1 (need b s) in
      pbind (assign_loop (S (remaining s)) nil false s) (fun '(es, w, s) =>
      let s := need w s in
      let s := ahead_if (okay s) s in
      pbind (parse_where s) (fun '(c, s) =>
      finish e (nonempty_where c s) (fun e => mk_upd e es c))))).

(** [DeleteStatement] *)
Record delete_stmt := mk_del { de_entity : entity; de_where : where_ }.
(** [parse_delete], ql/dml/del.rs:75-106 *)
Definition parse_delete (cs : option bytes) (s : pst) : pres (delete_stmt * pst) :=
  if (remaining s <? 5)%nat then PErr EEnd
  else
    pbind (cur_is (is_misc KmFrom) s) (fun b =>
    let s := ahead 1 (need b s) in
    pbind (entity_buffered cs s) (fun '(e, s) =>
    pbind (cur_is (is_misc KmWhere) s) (fun b =>
    let s := ahead 1 (need b s) in
    pbind (parse_where s) (fun '(c, s) =>
    finish e (nonempty_where c s) (fun e => mk_del e c))))).

(** the hardened parsers on the tokens after the keyword; [Select] with [All] is sent to
    [SelectAllStatement] by core/exec.rs *)
Definition select_of (cs : option bytes) (ts : list token) : pres select_stmt :=
  hardened (parse_select cs (start ts)).
(** the same for the statement of this name; called from core/exec.rs *)
Definition select_all_of (cs : option bytes) (ts : list token) : pres select_all_stmt :=
  hardened (parse_select_all cs (start ts)).
(** the same for the statement of this name; called from core/exec.rs *)
Definition update_of (cs : option bytes) (ts : list token) : pres update_stmt :=
  hardened (parse_update cs (start ts)).
(** the same for the statement of this name; called from core/exec.rs *)
Definition delete_of (cs : option bytes) (ts : list token) : pres delete_stmt :=
  hardened (parse_delete cs (start ts)).
