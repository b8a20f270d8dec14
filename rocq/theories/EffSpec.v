(** What each schema and account statement is documented to do, as a relation on the catalogue: the
    spaces, models and accounts seen as finite maps. Nothing here refers to the functions of
    GnsModel.v that compute it. *)
From Coq Require Import Strings.String List NArith Bool Permutation.
From Verif Require Import Bytes AMap DataModel CodecModel GnsCodecModel DictModel DictProofs TypeModel TypeProofs GnsModel.
Import ListNotations.
Local Open Scope N_scope.

(** ** The catalogue *)

(** a space: its uuid and its properties; which models it has is read off the models *)
Record cat := mk_cat {
  c_space : bytes -> option (N * dict);
  c_model : bytes * bytes -> option mmodel;
  c_user : bytes -> option bytes }.

Definition cat_of (n : ns) : cat := mk_cat
  (fun k => match aget bseq k (n_spaces n) with Some s => Some (sp_uuid s, sp_props s) | None => None end)
  (fun id => aget ent_eqb id (n_models n))
  (fun u => aget bseq u (n_users n)).

Definition cat_eq (a b : cat) : Prop :=
  (forall k, c_space a k = c_space b k) /\ (forall id, c_model a id = c_model b id) /\
  (forall u, c_user a u = c_user b u).

(** the only ways in which a statement may change the catalogue *)
Inductive change :=
| Nothing
| SetSpace (name : bytes) (uuid : N) (props : dict)
| DelSpace (name : bytes)
| SetModel (id : bytes * bytes) (m : mmodel)
| DelModel (id : bytes * bytes)
| SetUser (name h : bytes)
| DelUser (name : bytes).

Definition beq (a b : bytes) : bool := if list_eq_dec Byte.byte_eq_dec a b then true else false.
Definition ideq (a b : bytes * bytes) : bool := beq (fst a) (fst b) && beq (snd a) (snd b).

Definition changed (ch : change) (c : cat) : cat :=
  match ch with
  | Nothing => c
  | SetSpace k u p => mk_cat (fun x => if beq x k then Some (u, p) else c_space c x) (c_model c) (c_user c)
  | DelSpace k => mk_cat (fun x => if beq x k then None else c_space c x)
                         (fun id => if beq (fst id) k then None else c_model c id) (c_user c)
  | SetModel id m => mk_cat (c_space c) (fun x => if ideq x id then Some m else c_model c x) (c_user c)
  | DelModel id => mk_cat (c_space c) (fun x => if ideq x id then None else c_model c x) (c_user c)
  | SetUser u h => mk_cat (c_space c) (c_model c) (fun x => if beq x u then Some h else c_user c x)
  | DelUser u => mk_cat (c_space c) (c_model c) (fun x => if beq x u then None else c_user c x)
  end.

(** ** Space properties *)

Definition K_env : bytes := bstr "env"%string.
(** CREATE SPACE: no property, or exactly [env], null or a map; nulls inside it are not kept *)
Inductive space_options : dict -> dict -> Prop :=
| so_none : space_options [] [(K_env, DMap [])]
| so_null : space_options [(K_env, DData CNull)] [(K_env, DMap [])]
| so_map m d :
    (forall p, look p (DMap d) = match look p (DMap m) with Some (LCell CNull) => None | x => x end) ->
    space_options [(K_env, DMap m)] [(K_env, DMap d)].
(** ALTER SPACE with exactly [env], acceptable in kind against the current properties (C44); the
    result at every path is that of the merge of C44, and an [env] that goes away is left empty *)
Inductive space_altered (cur : dict) : dict -> dict -> Prop :=
| sa_env e d :
    (e = DData CNull \/ exists m, e = DMap m) -> acceptable cur [(K_env, e)] ->
    (forall p, look p (DMap d) =
       match got p (Some (DMap [(K_env, e)])) (Some (DMap cur)) with
       | None => if match p with [k] => beq k K_env | _ => false end then Some LMap else None
       | x => x
       end) -> space_altered cur [(K_env, e)] d.

(** ** Models *)

(** a written type, innermost layer first: one scalar type inside any number of lists *)
Definition written_type (spec : list layer_spec) (layers : list tsel) : Prop :=
  exists n t, t <> TsList /\ layers = repeat TsList n ++ [t] /\
    spec = mk_ls (type_name t) [] :: repeat (mk_ls (bstr "list"%string) []) n.

Definition key_type (t : tsel) : Prop :=
  In t [TsU8; TsU16; TsU32; TsU64; TsS8; TsS16; TsS32; TsS64; TsBin; TsStr].

(** the key column: the one declared primary, which may not be declared null, or else the first one *)
Definition key_column (fields : list field_spec) (k : bytes) : Prop :=
  (exists x, filter fs_primary fields = [x] /\ fs_null x = false /\ k = fs_name x) \/
  (filter fs_primary fields = [] /\ hd_error (map fs_name fields) = Some k).

Definition model_def (uuid : N) (fields : list field_spec) (props : dict) (lay : layout) : Prop :=
  props = [] /\ NoDup (map fs_name fields) /\
  Forall2 (fun x kv => fst kv = fs_name x /\ f_null (snd kv) = fs_null x /\
                       written_type (fs_layers x) (f_layers (snd kv))) fields (lo_fields lay) /\
  lo_uuid lay = uuid /\ key_column fields (lo_pk lay) /\ key_type (lo_ptag lay) /\
  exists kf, In (lo_pk lay, kf) (lo_fields lay) /\ f_layers kf = [lo_ptag lay].

Definition K_nullable : bytes := bstr "nullable"%string.
(** the [nullable] property of a column in ALTER MODEL: a truth value, false if not given *)
Definition null_opt (props : dict) (b : bool) : Prop :=
  dget K_nullable props = Some (DData (CBool b)) \/ (dget K_nullable props = None /\ b = false).

(** ADD: new distinct names; appended in the order written *)
Definition add_def (fs : fieldmap) (l : list exp_field) (new : fieldmap) : Prop :=
  NoDup (map ef_name l) /\ (forall x, In x l -> aget bseq (ef_name x) fs = None) /\
  Forall2 (fun x kv => fst kv = ef_name x /\ null_opt (ef_props x) (f_null (snd kv)) /\
                       written_type (ef_layers x) (f_layers (snd kv))) l new.

(** REMOVE: distinct existing names, not the key *)
Definition rem_def (pk : bytes) (fs : fieldmap) (ks : list bytes) : Prop :=
  NoDup ks /\ forall k, In k ks -> k <> pk /\ aget bseq k fs <> None.

(** UPDATE: the same type or a wider one of the same kind, layer by layer from the outermost; layers
    not written stay *)
Definition wider (c t : tsel) : Prop :=
  c = t \/
  match c, t with
  | TsU8, (TsU16 | TsU32 | TsU64) | TsU16, (TsU32 | TsU64) | TsU32, TsU64
  | TsS8, (TsS16 | TsS32 | TsS64) | TsS16, (TsS32 | TsS64) | TsS32, TsS64
  | TsF32, TsF64 => True
  | _, _ => False
  end.
Inductive widened : list layer_spec -> list tsel -> list tsel -> Prop :=
| wd_stop cs : widened [] cs cs
| wd_layer c t ls cs ts : wider c t -> widened ls cs ts ->
    widened (mk_ls (type_name t) [] :: ls) (c :: cs) (t :: ts).
(** a column may become nullable but not the reverse; no property but [nullable] *)
Definition upd_col (pk : bytes) (fs : fieldmap) (x : exp_field) (kv : bytes * field) : Prop :=
  fst kv = ef_name x /\ ef_name x <> pk /\
  (forall k e, In (k, e) (ef_props x) -> k = K_nullable) /\ null_opt (ef_props x) (f_null (snd kv)) /\
  exists cur, aget bseq (ef_name x) fs = Some cur /\ (f_null cur = true -> f_null (snd kv) = true) /\
    widened (rev (ef_layers x)) (f_layers cur) (f_layers (snd kv)).
Definition upd_def (pk : bytes) (fs : fieldmap) (l : list exp_field) (new : fieldmap) : Prop :=
  NoDup (map ef_name l) /\ Forall2 (upd_col pk fs) l new.

Definition keep (ks : list bytes) (fs : fieldmap) : fieldmap :=
  filter (fun kv => negb (existsb (beq (fst kv)) ks)) fs.
Definition with_fields (m : mmodel) (fs : fieldmap) (ver : N) : mmodel :=
  mk_mmodel (mk_layout (lo_uuid (md_lay m)) (lo_pk (md_lay m)) (lo_ptag (md_lay m)) fs) ver.

(** an accepted ALTER MODEL and the model after it; the schema version counts added and removed
    columns *)
Inductive model_altered (m : mmodel) : alter_kind -> mmodel -> Prop :=
| ma_add l new : add_def (lo_fields (md_lay m)) l new ->
    model_altered m (AkAdd l) (with_fields m (lo_fields (md_lay m) ++ new) (md_ver m + N.of_nat (length l)))
| ma_rem ks : rem_def (lo_pk (md_lay m)) (lo_fields (md_lay m)) ks ->
    model_altered m (AkRemove ks) (with_fields m (keep ks (lo_fields (md_lay m))) (md_ver m + N.of_nat (length ks)))
| ma_upd l new new' : upd_def (lo_pk (md_lay m)) (lo_fields (md_lay m)) l new ->
    Exists (fun kv => aget bseq (fst kv) (lo_fields (md_lay m)) <> Some (snd kv)) new -> Permutation new' new ->
    model_altered m (AkUpdate l) (with_fields m (keep (map ef_name l) (lo_fields (md_lay m)) ++ new') (md_ver m))
| ma_upd_same l new : upd_def (lo_pk (md_lay m)) (lo_fields (md_lay m)) l new ->
    Forall (fun kv => aget bseq (fst kv) (lo_fields (md_lay m)) = Some (snd kv)) new ->
    model_altered m (AkUpdate l) m.

(** ** Accounts *)
Definition K_password : bytes := bstr "password"%string.
(** CREATE USER takes a password string and nothing else *)
Definition user_opts (opts : dict) (p : bytes) : Prop :=
  dget K_password opts = Some (DData (CStr p)) /\ forall k e, In (k, e) opts -> k = K_password.

(** ** Statements *)

(** IF [NOT] EXISTS turns "done" into true *)
Definition done (cond : bool) : outcome := if cond then OBool true else OEmpty.

Section Does.
Variable hash : bytes -> N -> bytes.

(** [does c root user en s o ch]: in catalogue [c] the statement is answered [o] and changes [ch];
    storage does not fail *)
Inductive does (c : cat) (se : session) (en : env) : stmt -> outcome -> change -> Prop :=
| d_report : does c se en SReportStatus OEmpty Nothing
| d_permission s : s <> SReportStatus -> se_root se = false -> does c se en s (OErr ErrPermission) Nothing
(* CREATE SPACE *)
| d_cs_options name props nx : se_root se = true -> (forall p, ~ space_options props p) ->
    does c se en (SCreateSpace name props nx) (OErr ErrProps) Nothing
| d_cs_exists name props nx p sp : se_root se = true -> space_options props p -> c_space c name = Some sp ->
    does c se en (SCreateSpace name props nx) (if nx then OBool false else OErr ErrExists) Nothing
| d_cs name props nx p : se_root se = true -> space_options props p -> c_space c name = None ->
    does c se en (SCreateSpace name props nx) (done nx) (SetSpace name (e_uuid en) p)
(* ALTER SPACE *)
| d_as_missing name props : se_root se = true -> c_space c name = None ->
    does c se en (SAlterSpace name props) (OErr ErrNotFound) Nothing
| d_as_nothing name sp : se_root se = true -> c_space c name = Some sp ->
    does c se en (SAlterSpace name []) OEmpty Nothing
| d_as_options name props u p : se_root se = true -> c_space c name = Some (u, p) -> props <> [] ->
    (forall p', ~ space_altered p props p') ->
    does c se en (SAlterSpace name props) (OErr ErrProps) Nothing
| d_as name props u p p' : se_root se = true -> c_space c name = Some (u, p) -> space_altered p props p' ->
    does c se en (SAlterSpace name props) OEmpty (SetSpace name u p')
(* DROP SPACE *)
| d_ds_missing name force ex : se_root se = true -> c_space c name = None ->
    does c se en (SDropSpace name force ex) (if ex then OBool false else OErr ErrNotFound) Nothing
| d_ds_full name ex sp m x : se_root se = true -> c_space c name = Some sp -> c_model c (name, m) = Some x ->
    does c se en (SDropSpace name false ex) (OErr ErrNotEmpty) Nothing
| d_ds name force ex sp : se_root se = true -> c_space c name = Some sp ->
    (force = true \/ forall m, c_model c (name, m) = None) ->
    does c se en (SDropSpace name force ex) (done ex) (DelSpace name)
(* CREATE MODEL *)
| d_cm_def id fields props nx e : se_root se = true -> (forall lay, ~ model_def (e_uuid en) fields props lay) ->
    In e [ErrType; ErrBadDef] ->
    does c se en (SCreateModel id fields props nx) (OErr e) Nothing
| d_cm_space id fields props nx lay : se_root se = true -> model_def (e_uuid en) fields props lay ->
    c_space c (fst id) = None ->
    does c se en (SCreateModel id fields props nx) (OErr ErrNotFound) Nothing
| d_cm_exists id fields props nx lay sp m : se_root se = true -> model_def (e_uuid en) fields props lay ->
    c_space c (fst id) = Some sp -> c_model c id = Some m ->
    does c se en (SCreateModel id fields props nx) (if nx then OBool false else OErr ErrExists) Nothing
| d_cm id fields props nx lay sp : se_root se = true -> model_def (e_uuid en) fields props lay ->
    c_space c (fst id) = Some sp -> c_model c id = None ->
    does c se en (SCreateModel id fields props nx) (done nx) (SetModel id (mk_mmodel lay 0))
(* ALTER MODEL *)
| d_am_missing id k : se_root se = true -> c_model c id = None ->
    does c se en (SAlterModel id k) (OErr ErrNotFound) Nothing
| d_am_refused id k m e : se_root se = true -> c_model c id = Some m -> (forall m', ~ model_altered m k m') ->
    In e [ErrAlter; ErrField; ErrType; ErrProps; ErrNeedLock] ->
    does c se en (SAlterModel id k) (OErr e) Nothing
| d_am id k m m' : se_root se = true -> c_model c id = Some m -> model_altered m k m' ->
    does c se en (SAlterModel id k) OEmpty (SetModel id m')
(* DROP MODEL *)
| d_dm_space id force ex : se_root se = true -> c_space c (fst id) = None ->
    does c se en (SDropModel id force ex) (OErr ErrNotFound) Nothing
| d_dm_missing id force ex sp : se_root se = true -> c_space c (fst id) = Some sp -> c_model c id = None ->
    does c se en (SDropModel id force ex) (if ex then OBool false else OErr ErrNotFound) Nothing
| d_dm_full id ex sp m : se_root se = true -> c_space c (fst id) = Some sp -> c_model c id = Some m ->
    e_rows en <> 0 -> does c se en (SDropModel id false ex) (OErr ErrNotEmpty) Nothing
| d_dm id force ex sp m : se_root se = true -> c_space c (fst id) = Some sp -> c_model c id = Some m ->
    (force = true \/ e_rows en = 0) ->
    does c se en (SDropModel id force ex) (done ex) (DelModel id)
(* accounts *)
| d_cu_options name opts : se_root se = true -> (forall p, ~ user_opts opts p) ->
    does c se en (SCreateUser name opts) (OErr ErrProps) Nothing
| d_cu_exists name opts p h : se_root se = true -> user_opts opts p -> c_user c name = Some h ->
    does c se en (SCreateUser name opts) (OErr ErrAuth) Nothing
| d_cu name opts p : se_root se = true -> user_opts opts p -> c_user c name = None ->
    does c se en (SCreateUser name opts) OEmpty (SetUser name (hash p (e_salt en)))
| d_au name opts : se_root se = true -> does c se en (SAlterUser name opts) (OErr ErrAuth) Nothing
| d_du_refused name : se_root se = true -> (name = se_user se \/ c_user c name = None) ->
    does c se en (SDropUser name) (OErr ErrAuth) Nothing
| d_du name h : se_root se = true -> name <> se_user se -> c_user c name = Some h ->
    does c se en (SDropUser name) OEmpty (DelUser name).
End Does.
