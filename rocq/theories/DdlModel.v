(** The parsers of the schema and system statements: [ql/ddl/syn.rs], [ql/ddl/crt.rs],
    [ql/ddl/alt.rs], [ql/ddl/drop.rs], [ql/ddl/mod.rs] (USE, INSPECT) and [ql/dcl.rs]. All paths are
    below /repo/server/src/engine/. The parse state is that of ParseModel.v. *)
From Coq Require Import Strings.String List NArith Bool Arith.
From Verif Require Import Bytes DataModel CodecModel DictModel TypeModel GnsModel RowModel LexModel ParseModel.
Import ListNotations.

(* ------------------------------------------------------------------ *)
(** * Dictionaries *)

(** [DictFoldState], ql/ddl/syn.rs:84-94, with the key read last. [FINAL] is the end of the loop. *)
Inductive dstate := DsOb | DsKey | DsColon (k : bytes) | DsVal (k : bytes) | DsComma.

(** [dict.insert(..).is_none()] *)
Definition fresh (k : bytes) (d : dict) : bool := negb (has_key k d).

(** [_rfold_dict], ql/ddl/syn.rs:117-219. The result's boolean is the function's: the breakpoint
    ([TypeBreakpoint], 108-114) was reached; [bp] says whether there is one. A repeated key poisons
    the state. [cursor_back] then [poison] (210-214) leaves the cursor before the token. The recursion
    is bounded by fuel. *)
Fixpoint dict_loop (fuel : nat) (bp : bool) (m : dstate) (d : dict) (s : pst) : pres (bool * dict * pst) :=
  match fuel with
  | O => PFuel
  | S n =>
      if negb (going s) then POk (false, d, poison s)
      else
        match rest s with
        | nil => PPanic
        | t :: r =>
            let s1 := mk_pst r (okay s) in
            let other :=
              match m, bp && is_misc KmType t with
              | DsKey, true => POk (true, d, s1)
              | _, _ => POk (false, d, poison s)
              end in
            match t, m with
            | TSym SOpenBrace, DsOb => dict_loop n bp DsKey d s1
            | TSym SCloseBrace, DsKey => POk (false, d, s1)
            | TSym SCloseBrace, DsComma => POk (false, d, s1)
            | TId k, DsKey => dict_loop n bp (DsColon k) d s1
            | TSym SColon, DsColon k => dict_loop n bp (DsVal k) d s1
            | TLit l, DsVal k => dict_loop n bp DsComma (d ++ [(k, DData (lit_cell l))]) (need (fresh k d) s1)
            | TKw (KMisc KmNull), DsVal k => dict_loop n bp DsComma (d ++ [(k, DData CNull)]) (need (fresh k d) s1)
            | TSym SOpenBrace, DsVal k =>
                pbind (dict_loop n false DsKey nil s1) (fun '(_, nd, s2) =>
                  dict_loop n bp DsComma (d ++ [(k, DMap nd)]) (need (fresh k d) s2))
            | TSym SComma, DsComma => dict_loop n bp DsKey d s1
            | _, _ => other
            end
        end
  end.
(** [rfold_dict], ql/ddl/syn.rs:221-227 *)
Definition fold_dict (m : dstate) (d : dict) (s : pst) : pres (dict * pst) :=
  pbind (dict_loop (S (remaining s)) false m d s) (fun '(_, d, s) => POk (d, s)).
(** [rfold_tymeta], ql/ddl/syn.rs:239-245 *)
Definition fold_tymeta (d : dict) (s : pst) : pres (bool * dict * pst) :=
  dict_loop (S (remaining s)) true DsKey d s.

(* ------------------------------------------------------------------ *)
(** * Types *)

(** [rfold_layers], ql/ddl/syn.rs:273-341. The state machine goes through its states in one direction
    only, so that the loop is written out: [BEGIN_IDENT], [FINAL_OR_OB], [FOLD_INCOMPLETE], [FINAL]. The
    inner layers come first. *)
Fixpoint fold_layers (fuel : nat) (ls : list layer_spec) (s : pst) : pres (list layer_spec * pst) :=
  match fuel with
  | O => PFuel
  | S n =>
      if negb (going s) then POk (ls, poison s)
      else
        match rest s with
        | TId ty :: TSym SOpenBrace :: r =>
            pbind (fold_tymeta nil (mk_pst r true)) (fun '(more, props, s2) =>
            if more then
              let s3 := need (next_is (is_sym SColon) s2) s2 in
              let s4 := ahead_if (okay s3) s3 in
              pbind (fold_layers n ls s4) (fun '(ls', s5) =>
              if negb (going s5) then POk (ls', poison s5)
              else
                match rest s5 with
                | TSym SCloseBrace :: r6 => POk (ls' ++ [mk_ls ty props], mk_pst r6 (okay s5))
                | TSym SComma :: r6 =>
                    pbind (fold_dict DsKey props (mk_pst r6 (okay s5))) (fun '(props', s7) =>
                    if okay s7 then POk (ls' ++ [mk_ls ty props'], s7) else POk (ls', poison s7))
                | _ => POk (ls', poison s5)
                end)
            else if okay s2 then POk (ls ++ [mk_ls ty props], s2) else POk (ls, poison s2))
        | TId ty :: r => POk (ls ++ [mk_ls ty nil], mk_pst r (okay s))
        | _ => POk (ls, poison s)
        end
  end.
(** its first call, ql/ddl/syn.rs:392, 462 *)
Definition layers (s : pst) : pres (list layer_spec * pst) := fold_layers (S (remaining s)) nil s.

(** [FieldSpec::parse], ql/ddl/syn.rs:372-403. The two [fw_read]s (386) panic at the end. *)
Definition field_decl (s : pst) : pres (field_spec * pst) :=
  if (remaining s <? 2)%nat then PErr EEnd
  else
    pbind (cur_is (is_misc KmPrimary) s) (fun prim =>
    let s := ahead_if prim s in
    pbind (cur_is (is_misc KmNull) s) (fun null =>
    let s := need (negb (prim && null)) (ahead_if null s) in
    pbind (fw_read s) (fun '(a, s) =>
    pbind (fw_read s) (fun '(b, s) =>
    match a, b with
    | TId k, TSym SColon =>
        pbind (layers s) (fun '(ls, s) =>
        if okay s then POk (mk_fs k ls null prim, s) else PErr ETypeDef)
    | _, _ => PErr ESyntax
    end)))).

(** [ExpandedField::parse], ql/ddl/syn.rs:427-476. The [fw_read] after the layers (454) panics at the
    end. *)
Definition exp_field_decl (s : pst) : pres (exp_field * pst) :=
  if (remaining s <? 6)%nat then PErr EEnd
  else
    pbind (fw_read s) (fun '(nm, s) =>
    let s := need (is_ident nm) s in
    pbind (cur_is (is_sym SOpenBrace) s) (fun ob =>
    let s := ahead 1 (need ob s) in
    let fin ls props s :=
      if okay s then match nm with TId k => POk (mk_ef k ls props, s) | _ => PUb end else PErr ESyntax in
    pbind (fold_tymeta nil s) (fun '(more, props, s) =>
    if more then
      match rest s with
      | nil => PErr EEnd
      | c :: r =>
          pbind (layers (need (is_sym SColon c) (mk_pst r (okay s)))) (fun '(ls, s) =>
          pbind (fw_read s) (fun '(t, s) =>
          match t with
          | TSym SComma => pbind (fold_dict DsKey props s) (fun '(props, s) => fin ls props s)
          | TSym SCloseBrace => fin ls props s
          | _ => fin ls props (poison s)
          end))
      end
    else fin nil props s))).

(** the fields in parentheses, ql/ddl/syn.rs:500-524: [stop] is the closing parenthesis *)
Fixpoint exp_loop (fuel : nat) (fs : list exp_field) (stop : bool) (s : pst)
  : pres (list exp_field * bool * pst) :=
  match fuel with
  | O => PFuel
  | S n =>
      if negb (going s) || stop then POk (fs, stop, s)
      else
        match rest s with
        | TId _ :: _ =>
            pbind (exp_field_decl s) (fun '(f, s) =>
            let c := next_is (is_sym SComma) s in
            let e := next_is (is_sym SCloseParen) s in
            let s := need (c || e) s in
            exp_loop n (fs ++ [f]) e (ahead_if (okay s) s))
        | _ => POk (fs, stop, poison s)
        end
  end.
(** [ExpandedField::parse_multiple], ql/ddl/syn.rs:479-534 *)
Definition exp_fields (s : pst) : pres (list exp_field * pst) :=
  if (remaining s <? 5)%nat then PErr EEnd
  else
    match rest s with
    | TId _ :: _ => pbind (exp_field_decl s) (fun '(f, s) => POk ([f], s))
    | TSym SOpenParen :: r =>
        pbind (exp_loop (S (remaining s)) nil false (mk_pst r (okay s))) (fun '(fs, stop, s) =>
        let s := need stop s in
        if okay s then POk (fs, s) else PErr ESyntax)
    | _ => PErr EExpStmt
    end.

(* ------------------------------------------------------------------ *)
(** * CREATE *)

(** [sig_if_not_exists], ql/ddl/crt.rs:42-47 *)
Definition sig_nx (s : pst) : bool :=
  match rest s with
  | a :: b :: c :: _ =>
      is_misc KmIf a && is_misc KmNot b && match c with TKw (KStmt KsExists) => true | _ => false end
  | _ => false
  end.

(** [CreateSpace::parse], ql/ddl/crt.rs:62-101 *)
Definition create_space (s : pst) : pres (stmt * pst) :=
  if (remaining s <? 1)%nat then PErr EEnd
  else
    let nx := sig_nx s in
    let s := if nx then ahead 3 s else s in
    match rest s with
    | nil => PErr EEnd
    | nm :: r =>
        let s := need (is_ident nm) (mk_pst r (okay s)) in
        let more := next_is (is_misc KmWith) s in
        let s := ahead_if more (need (more || match rest s with nil => true | _ => false end) s) in
        pbind (if more && okay s then fold_dict DsOb nil s else POk (nil, s)) (fun '(d, s) =>
        if okay s then match nm with TId k => POk (SCreateSpace k d nx, s) | _ => PUb end
        else PErr ESyntax)
    end.

(** the fields of CREATE MODEL, ql/ddl/crt.rs:154-161 *)
Fixpoint decl_loop (fuel : nat) (fs : list field_spec) (stop : bool) (s : pst)
  : pres (list field_spec * bool * pst) :=
  match fuel with
  | O => PFuel
  | S n =>
      if negb (going s) || stop then POk (fs, stop, s)
      else
        pbind (field_decl s) (fun '(f, s) =>
        let e := next_is (is_sym SCloseParen) s in
        let c := next_is (is_sym SComma) s in
        decl_loop n (fs ++ [f]) e (ahead_if (e || c) (need (e || c) s)))
  end.
(** [CreateModel::parse], ql/ddl/crt.rs:140-185 *)
Definition create_model (s : pst) : pres (stmt * pst) :=
  if (remaining s <? 10)%nat then PErr EEnd
  else
    let nx := sig_nx s in
    let s := if nx then ahead 3 s else s in
    pbind (entity_buffered None s) (fun '(e, s) =>
    pbind (cur_is (is_sym SOpenParen) s) (fun op =>
    let s := ahead 1 (need op s) in
    pbind (decl_loop (S (remaining s)) nil false s) (fun '(fs, stop, s) =>
    let s := need stop s in
    pbind (if next_is (is_misc KmWith) s then fold_dict DsOb nil (ahead 1 s) else POk (nil, s))
      (fun '(props, s) => finish e s (fun e => SCreateModel e fs props nx))))).

(* ------------------------------------------------------------------ *)
(** * ALTER *)

(** [AlterSpace::parse], ql/ddl/alt.rs:59-90 *)
Definition alter_space (s : pst) : pres (stmt * pst) :=
  if (remaining s <=? 3)%nat then PErr EEnd
  else
    pbind (fw_read s) (fun '(nm, s) =>
    let s := need (is_ident nm) s in
    pbind (cur_is (is_misc KmWith) s) (fun w =>
    let s := ahead 1 (need w s) in
    pbind (cur_is (is_sym SOpenBrace) s) (fun ob =>
    let s := ahead 1 (need ob s) in
    if negb (okay s) then PErr ESyntax
    else
      match nm with
      | TId k =>
          pbind (fold_dict DsKey nil s) (fun '(d, s) =>
          if okay s then POk (SAlterSpace k d, s) else PErr ECollection)
      | _ => PUb
      end))).

(** [try_entity_ref_result], ql/ast/mod.rs:107-134, without a current space: the statement has to say
    [space.model]. The rounded reads (offset_current_r) match this signature only on three tokens. *)
Definition entity_full (s : pst) : pres (entity * pst) :=
  match rest s with
  | TId a :: TSym SPeriod :: TId b :: r => POk ((a, b), mk_pst r (okay s))
  | _ => PErr EExpEntity
  end.

(** the columns of REMOVE in parentheses, ql/ddl/alt.rs:157-177 *)
Fixpoint remove_loop (fuel : nat) (ks : list bytes) (stop : bool) (s : pst) : pres (list bytes * bool * pst) :=
  match fuel with
  | O => PFuel
  | S n =>
      if negb (going s) || stop then POk (ks, stop, s)
      else
        match rest s with
        | TId k :: r =>
            let s1 := mk_pst r (okay s) in
            let c := next_is (is_sym SComma) s1 in
            let e := next_is (is_sym SCloseParen) s1 in
            let s2 := need (c || e) s1 in
            remove_loop n (ks ++ [k]) e (ahead_if (okay s2) s2)
        | _ => POk (ks, stop, poison s)
        end
  end.
(** [AlterKind::alter_remove], ql/ddl/alt.rs:141-188 *)
Definition alter_remove (s : pst) : pres (alter_kind * pst) :=
  match rest s with
  | nil => PErr EEnd
  | TId k :: r => POk (AkRemove [k], mk_pst r (okay s))
  | TSym SOpenParen :: r =>
      pbind (remove_loop (S (remaining s)) nil false (mk_pst r (okay s))) (fun '(ks, stop, s) =>
      let s := need stop s in
      if okay s then POk (AkRemove ks, s) else PErr ESyntax)
  | _ => PErr ESyntax
  end.
(** [AlterModel::parse], ql/ddl/alt.rs:108-127; the [fw_read] (118) panics at the end *)
Definition alter_model (s : pst) : pres (stmt * pst) :=
  if (remaining s <=? 2)%nat || negb (next_is is_ident s) then PErr ESyntax
  else
    pbind (entity_full s) (fun '(e, s) =>
    pbind (fw_read s) (fun '(t, s) =>
    let alter k := pbind k (fun '(k, s) => POk (SAlterModel e k, s)) in
    match t with
    | TKw (KMisc KmAdd) => alter (pbind (exp_fields s) (fun '(fs, s) => POk (AkAdd fs, s)))
    | TKw (KMisc KmRemove) => alter (alter_remove s)
    | TKw (KStmt KsUpdate) => alter (pbind (exp_fields s) (fun '(fs, s) => POk (AkUpdate fs, s)))
    | _ => PErr EExpStmt
    end)).

(* ------------------------------------------------------------------ *)
(** * DROP *)

(** [check_if_exists], ql/ddl/drop.rs:87-97. With one token left the rounded second read is that token
    again, which is not EXISTS. *)
Definition check_ex (s : pst) : pres (bool * pst) :=
  match rest s with
  | nil => PErr EEnd
  | _ =>
      let '(ex, s') :=
        match rest s with
        | TKw (KMisc KmIf) :: TKw (KStmt KsExists) :: r => (true, mk_pst r (okay s))
        | _ => (false, s)
        end in
      match rest s' with nil => PErr EEnd | _ => POk (ex, s') end
  end.
(** [ident_eq] with a lower-case word, ql/lex/raw.rs:138-140 *)
Definition word_eq (w : bytes) (t : token) : bool := match t with TId x => eq_ci x w | _ => false end.
(** [ddl_allow_non_empty], ql/ddl/drop.rs:100-106; the state after ALLOW NOT EMPTY *)
Definition allow_non_empty (s : pst) : option pst :=
  match rest s with
  | a :: b :: c :: ((TId _ :: _) as r) =>
      if is_misc KmAllow a && is_misc KmNot b && word_eq (bstr "empty"%string) c
      then Some (mk_pst r (okay s)) else None
  | _ => None
  end.
(** [DropSpace::parse], ql/ddl/drop.rs:58-84 *)
Definition drop_space (s : pst) : pres (stmt * pst) :=
  pbind (check_ex s) (fun '(ex, s) =>
  match rest s with
  | TId k :: r => POk (SDropSpace k false ex, mk_pst r (okay s))
  | _ =>
      match allow_non_empty s with
      | Some s' => match rest s' with TId k :: r => POk (SDropSpace k true ex, mk_pst r (okay s')) | _ => PUb end
      | None => PErr ESyntax
      end
  end).
(** [DropModel::parse], ql/ddl/drop.rs:124-137 *)
Definition drop_model (s : pst) : pres (stmt * pst) :=
  pbind (check_ex s) (fun '(ex, s) =>
  match rest s with
  | TId _ :: _ => pbind (entity_full s) (fun '(e, s) => POk (SDropModel e false ex, s))
  | _ =>
      match allow_non_empty s with
      | Some s' => pbind (entity_full s') (fun '(e, s) => POk (SDropModel e true ex, s))
      | None => PErr ESyntax
      end
  end).

(* ------------------------------------------------------------------ *)
(** * SYSCTL, USE, INSPECT *)

(** [parse], ql/dcl.rs:85-115: user name and options *)
Definition user_decl (s : pst) : pres (bytes * dict * pst) :=
  match rest s with
  | a :: b :: c :: r =>
      if (remaining s <? 7)%nat then PErr ESyntax
      else
        let s1 := need (is_ident a && is_misc KmWith b && is_sym SOpenBrace c) (mk_pst (c :: r) (okay s)) in
        pbind (fold_dict DsOb nil s1) (fun '(d, s2) =>
        if negb (okay s2) then PErr ECollection
        else
          match rest s2 with
          | nil => match a with TId k => POk (k, d, s2) | _ => PUb end
          | _ => PErr ESyntax
          end)
  | _ => PErr ESyntax
  end.
(** [SysctlCommand::__base_impl_parse_from_state], ql/dcl.rs:56-82; [UserDel::parse], 152-162 *)
Definition sysctl (s : pst) : pres (stmt * pst) :=
  if (remaining s <? 2)%nat then PErr EEnd
  else
    pbind (fw_read s) (fun '(a, s) =>
    pbind (fw_read s) (fun '(b, s) =>
    let user := word_eq (bstr "user"%string) b in
    match a with
    | TKw (KStmt KsCreate) =>
        if user then pbind (user_decl s) (fun '(k, d, s) => POk (SCreateUser k d, s)) else PErr EUnknown
    | TKw (KStmt KsDrop) =>
        if user then
          match rest s with
          | [TId k] => POk (SDropUser k, mk_pst nil (okay s))
          | _ => PErr ESyntax
          end
        else PErr EUnknown
    | TKw (KStmt KsAlter) =>
        if user then pbind (user_decl s) (fun '(k, d, s) => POk (SAlterUser k d, s)) else PErr EUnknown
    | _ =>
        if word_eq (bstr "report"%string) a && word_eq (bstr "status"%string) b
        then POk (SReportStatus, s) else PErr EUnknown
    end)).

(** [Use], ql/ddl/mod.rs:44-49 *)
Inductive use_stmt := UseSpace (k : bytes) | UseCurrent | UseNull.
(** ql/ddl/mod.rs:51-79 *)
Definition parse_use (s : pst) : pres (use_stmt * pst) :=
  match rest s with
  | nil => PErr ESyntax
  | t :: r =>
      if (2 <? remaining s)%nat then PErr ESyntax
      else
        match t with
        | TId k => POk (UseSpace k, mk_pst r (okay s))
        | TKw (KMisc KmNull) => POk (UseNull, mk_pst r (okay s))
        | TSym SDollar =>
            match r with
            | nil => PErr ESyntax
            | c :: r' => if word_eq (bstr "current"%string) c then POk (UseCurrent, mk_pst r' (okay s)) else PErr ESyntax
            end
        | _ => PErr ESyntax
        end
  end.

(** [Inspect], ql/ddl/mod.rs:81-86 *)
Inductive inspect_stmt := InGlobal | InSpace (k : bytes) | InModel (e : entity).
(** [try_entity_ref_result], ql/ast/mod.rs:107-134, with the current space. The rounded reads see the
    token before the cursor when nothing is left; here that is the keyword MODEL. *)
Definition entity_ref (cs : option bytes) (s : pst) : pres (entity * pst) :=
  match rest s with
  | TId a :: TSym SPeriod :: TId b :: r => POk ((a, b), mk_pst r (okay s))
  | TId b :: r => match cs with Some a => POk ((a, b), mk_pst r (okay s)) | None => PErr EExpEntity end
  | _ => PErr EExpEntity
  end.
(** ql/ddl/mod.rs:88-115 *)
Definition parse_inspect (cs : option bytes) (s : pst) : pres (inspect_stmt * pst) :=
  match rest s with
  | nil => PErr EEnd
  | TKw (KMisc KmSpace) :: r =>
      match r with
      | nil => PErr EEnd
      | TId k :: r' => POk (InSpace k, mk_pst r' (okay s))
      | _ => PErr ESyntax
      end
  | TKw (KMisc KmModel) :: r =>
      pbind (entity_ref cs (mk_pst r (okay s))) (fun '(e, s) => POk (InModel e, s))
  | t :: r => if word_eq (bstr "global"%string) t then POk (InGlobal, mk_pst r (okay s)) else PErr ESyntax
  end.

(** the hardened parsers on the tokens after the keywords *)
Definition create_space_of ts := hardened (create_space (start ts)).
(** the same for the statement of this name; called from core/exec.rs *)
Definition create_model_of ts := hardened (create_model (start ts)).
(** the same for the statement of this name; called from core/exec.rs *)
Definition alter_space_of ts := hardened (alter_space (start ts)).
(** the same for the statement of this name; called from core/exec.rs *)
Definition alter_model_of ts := hardened (alter_model (start ts)).
(** the same for the statement of this name; called from core/exec.rs *)
Definition drop_space_of ts := hardened (drop_space (start ts)).
(** the same for the statement of this name; called from core/exec.rs *)
Definition drop_model_of ts := hardened (drop_model (start ts)).
(** the same for the statement of this name; called from core/exec.rs *)
Definition sysctl_of ts := hardened (sysctl (start ts)).
(** the same for the statement of this name; called from core/exec.rs *)
Definition use_of ts := hardened (parse_use (start ts)).
(** the same for the statement of this name; called from core/exec.rs *)
Definition inspect_of cs ts := hardened (parse_inspect cs (start ts)).
