(** Specification of the schema and system statements: how a statement is written as a sequence of
    tokens. It does not refer to the parsers. A relation [x t v r] says that the tokens [t] start with
    the value [v] and that [r] is what follows it. *)
From Coq Require Import Strings.String List NArith Bool.
From Verif Require Import Bytes DataModel CodecModel TypeModel GnsModel RowModel LexModel LexSpec ParseSpec.
Import ListNotations.

(** [name: value], where a value is a literal, NULL or a dictionary; [dbody] is a dictionary after its
    opening brace, [dtail] the rest of a dictionary after an entry. A comma may end a dictionary. A key
    occurs once. *)
Inductive dent : list token -> bytes * dentry -> list token -> Prop :=
| de_lit k l r : dent (TId k :: TSym SColon :: TLit l :: r) (k, DData (lit_cell l)) r
| de_null k r : dent (TId k :: TSym SColon :: kmis KmNull :: r) (k, DData CNull) r
| de_map k t d r : dbody t d r -> NoDup (map fst d) ->
    dent (TId k :: TSym SColon :: TSym SOpenBrace :: t) (k, DMap d) r
with dbody : list token -> dict -> list token -> Prop :=
| db_end r : dbody (TSym SCloseBrace :: r) [] r
| db_more t x t1 d r : dent t x t1 -> dtail t1 d r -> dbody t (x :: d) r
with dtail : list token -> dict -> list token -> Prop :=
| dt_end r : dtail (TSym SCloseBrace :: r) [] r
| dt_comma t d r : dbody t d r -> dtail (TSym SComma :: t) d r.

(** entries, each followed by a comma *)
Inductive dpre : list token -> dict -> list token -> Prop :=
| dp_end t : dpre t [] t
| dp_more t x t1 d r : dent t x (TSym SComma :: t1) -> dpre t1 d r -> dpre t (x :: d) r.

(** types: a name, or a name with properties, or a name whose properties contain the type of the
    elements. The layers are listed from the innermost outwards. *)
Inductive lyr : list token -> list layer_spec -> list token -> Prop :=
| ly_plain ty r : (forall r', r <> TSym SOpenBrace :: r') -> lyr (TId ty :: r) [mk_ls ty []] r
| ly_props ty t d r : dbody t d r -> NoDup (map fst d) ->
    lyr (TId ty :: TSym SOpenBrace :: t) [mk_ls ty d] r
| ly_type ty t d1 t1 ls t2 d2 r :
    dpre t d1 (kmis KmType :: TSym SColon :: t1) -> lyr t1 ls t2 -> dtail t2 d2 r -> NoDup (map fst (d1 ++ d2)) ->
    lyr (TId ty :: TSym SOpenBrace :: t) (ls ++ [mk_ls ty (d1 ++ d2)]) r.

(** a column of CREATE MODEL: [[primary|null] name: type] *)
Definition flag_toks (null prim : bool) : list token :=
  (if prim then [kmis KmPrimary] else []) ++ (if null then [kmis KmNull] else []).
Inductive fdecl : list token -> field_spec -> list token -> Prop :=
| fd null prim k t ls r : prim && null = false -> lyr t ls r ->
    fdecl (flag_toks null prim ++ TId k :: TSym SColon :: t) (mk_fs k ls null prim) r.

(** a column of ALTER MODEL: [name { properties, type: type, properties }]; at least six tokens have to
    be left in the statement *)
Inductive edecl : list token -> exp_field -> list token -> Prop :=
| ed_plain k t d r : dbody t d r -> NoDup (map fst d) -> 6 <= length (TId k :: TSym SOpenBrace :: t) ->
    edecl (TId k :: TSym SOpenBrace :: t) (mk_ef k [] d) r
| ed_type k t d1 t1 ls t2 d2 r :
    dpre t d1 (kmis KmType :: TSym SColon :: t1) -> lyr t1 ls t2 -> dtail t2 d2 r -> NoDup (map fst (d1 ++ d2)) ->
    6 <= length (TId k :: TSym SOpenBrace :: t) ->
    edecl (TId k :: TSym SOpenBrace :: t) (mk_ef k ls (d1 ++ d2)) r.

(** items separated by commas up to the closing parenthesis *)
Inductive items {A} (p : list token -> A -> list token -> Prop) : list token -> list A -> list token -> Prop :=
| it_one t x r : p t x (TSym SCloseParen :: r) -> items p t [x] r
| it_more t x t1 l r : p t x (TSym SComma :: t1) -> items p t1 l r -> items p t (x :: l) r.
Inductive column : list token -> bytes -> list token -> Prop :=
| col k r : column (TId k :: r) k r.

(** [IF NOT EXISTS], [IF EXISTS], [ALLOW NOT EMPTY] *)
Definition kexists : token := TKw (KStmt KsExists).
Definition nx_toks (nx : bool) : list token := if nx then [kmis KmIf; kmis KmNot; kexists] else [].
Definition ex_toks (ex : bool) : list token := if ex then [kmis KmIf; kexists] else [].
(** a word, in any case of letters *)
Definition spells (w : bytes) (t : token) : Prop := exists x, t = TId x /\ map low x = map low w.
Inductive force_toks : bool -> list token -> Prop :=
| fo_no : force_toks false []
| fo_yes x : spells (bstr "empty"%string) x -> force_toks true [kmis KmAllow; kmis KmNot; x].
(** a model, always with its space *)
Definition full (e : ent) : list token := [TId (fst e); TSym SPeriod; TId (snd e)].
(** properties: none, or [WITH { ... }] to the end *)
Inductive with_props : list token -> dict -> Prop :=
| wp_none : with_props [] []
| wp_some t d : dbody t d [] -> NoDup (map fst d) -> with_props (kmis KmWith :: TSym SOpenBrace :: t) d.

(** items, each followed by a comma *)
Inductive pitems {A} (p : list token -> A -> list token -> Prop) : list token -> list A -> list token -> Prop :=
| pi_end t : pitems p t [] t
| pi_more t x t1 l r : p t x (TSym SComma :: t1) -> pitems p t1 l r -> pitems p t (x :: l) r.

(** the columns of ALTER MODEL ADD and UPDATE, of REMOVE *)
Inductive exp_cols : list token -> list exp_field -> Prop :=
| ec_one t f : edecl t f [] -> exp_cols t [f]
| ec_many t l : items edecl t l [] -> exp_cols (TSym SOpenParen :: t) l.
Inductive rem_cols : list token -> list bytes -> Prop :=
| rc_one k : rem_cols [TId k] [k]
| rc_many t l : items column t l [] -> rem_cols (TSym SOpenParen :: t) l.

(** the statements, after their first two keywords ([CREATE SPACE] and so on) *)
Inductive wf_create_space : list token -> stmt -> Prop :=
| wcs nx k t d : with_props t d -> wf_create_space (nx_toks nx ++ TId k :: t) (SCreateSpace k d nx).
Inductive wf_create_model : list token -> stmt -> Prop :=
| wcm nx e t fs t1 d : items fdecl t fs t1 -> with_props t1 d ->
    wf_create_model (nx_toks nx ++ full e ++ TSym SOpenParen :: t) (SCreateModel e fs d nx).
Inductive wf_alter_space : list token -> stmt -> Prop :=
| was k t d : dbody t d [] -> NoDup (map fst d) ->
    wf_alter_space (TId k :: kmis KmWith :: TSym SOpenBrace :: t) (SAlterSpace k d).
Inductive wf_alter_model : list token -> stmt -> Prop :=
| wam_add e t l : exp_cols t l -> wf_alter_model (full e ++ kmis KmAdd :: t) (SAlterModel e (AkAdd l))
| wam_upd e t l : exp_cols t l -> wf_alter_model (full e ++ TKw (KStmt KsUpdate) :: t) (SAlterModel e (AkUpdate l))
| wam_rem e t l : rem_cols t l -> wf_alter_model (full e ++ kmis KmRemove :: t) (SAlterModel e (AkRemove l)).
Inductive wf_drop_space : list token -> stmt -> Prop :=
| wds ex f F k : force_toks f F -> wf_drop_space (ex_toks ex ++ F ++ [TId k]) (SDropSpace k f ex).
Inductive wf_drop_model : list token -> stmt -> Prop :=
| wdm ex f F e : force_toks f F -> wf_drop_model (ex_toks ex ++ F ++ full e) (SDropModel e f ex).
(** after [SYSCTL] *)
Inductive wf_sysctl : list token -> stmt -> Prop :=
| wsy_create u k t d : spells (bstr "user"%string) u -> dbody t d [] -> NoDup (map fst d) ->
    wf_sysctl (TKw (KStmt KsCreate) :: u :: TId k :: kmis KmWith :: TSym SOpenBrace :: t) (SCreateUser k d)
| wsy_alter u k t d : spells (bstr "user"%string) u -> dbody t d [] -> NoDup (map fst d) ->
    wf_sysctl (TKw (KStmt KsAlter) :: u :: TId k :: kmis KmWith :: TSym SOpenBrace :: t) (SAlterUser k d)
| wsy_drop u k : spells (bstr "user"%string) u ->
    wf_sysctl [TKw (KStmt KsDrop); u; TId k] (SDropUser k)
| wsy_status a b : spells (bstr "report"%string) a -> spells (bstr "status"%string) b ->
    wf_sysctl [a; b] SReportStatus.

(** after [USE] and [INSPECT] *)
Inductive use_req := RSpace (k : bytes) | RCurrent | RNull.
Inductive wf_use : list token -> use_req -> Prop :=
| wu_space k : wf_use [TId k] (RSpace k)
| wu_null : wf_use [kmis KmNull] RNull
| wu_current c : spells (bstr "current"%string) c -> wf_use [TSym SDollar; c] RCurrent.
Inductive insp_req := QGlobal | QSpace (k : bytes) | QModel (e : bytes * bytes).
Inductive wf_inspect (cs : option bytes) : list token -> insp_req -> Prop :=
| wi_global g : spells (bstr "global"%string) g -> wf_inspect cs [g] QGlobal
| wi_space k : wf_inspect cs [kmis KmSpace; TId k] (QSpace k)
| wi_model en e : names cs en e -> wf_inspect cs (kmis KmModel :: en) (QModel e).
