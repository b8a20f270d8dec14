(** What clients write and see, without the functions of WireModel.v: what a text with parameters says,
    and when a packet is complete. *)
From Coq Require Import Strings.String List NArith Bool Arith.
From Verif Require Import Bytes AMap DataModel CodecModel NumModel NetModel NetProps GnsModel RowModel RowSpec RowUpd LexModel LexSpec ParseSpec ParseSel
  DdlSpec BatchModel UpgradeModel WholeModel WholeSpec WireModel.
Import ListNotations.

Definition kst (k : kstmt) : token := TKw (KStmt k).

(** ** Statements *)

(** the data statements with the model they name, as they are accepted (C46): up to three ANDs after the
    conditions, a comma after the fields or in place of the last bracket are let pass *)
Inductive data_stmt (gn : gens) (cs : option bytes) : list token -> ent -> rstmt -> Prop :=
| ds_insert r e d : 5 <= length r -> wf_insert (gn_text gn) (gn_bin gn) (gn_now gn) cs r e d ->
    data_stmt gn cs (kst KsInsert :: r) e (RInsert d)
| ds_insert_comma u e d : 5 <= length (u ++ [TSym SComma]) -> d <> InsTuple nil -> d <> InsMap nil ->
    wf_insert (gn_text gn) (gn_bin gn) (gn_now gn) cs (u ++ [close_of d]) e d ->
    data_stmt gn cs (kst KsInsert :: u ++ [TSym SComma]) e (RInsert d)
| ds_update r k e l w : k <= 3 -> wf_update cs r e l w -> data_stmt gn cs (kst KsUpdate :: r ++ repeat (kmis KmAnd) k) e (RUpdate w l)
| ds_delete r k e w : k <= 3 -> wf_delete cs r e w -> data_stmt gn cs (kst KsDelete :: r ++ repeat (kmis KmAnd) k) e (RDelete w)
| ds_select_full f F en e : loose_fields f F -> fields_ok f -> names cs en e -> length en = 3 ->
    data_stmt gn cs (kst KsSelect :: F ++ kmis KmFrom :: en) e (RSelect nil f)
| ds_select f F en e w k : loose_fields f F -> fields_ok f -> names cs en e -> where_ok w -> k <= 3 ->
    data_stmt gn cs (kst KsSelect :: F ++ kmis KmFrom :: en ++ kmis KmWhere :: where_toks w ++ repeat (kmis KmAnd) k) e (RSelect w f)
| ds_select_all f F en e n : loose_fields f F -> fields_ok f -> names cs en e ->
    data_stmt gn cs (kst KsSelect :: kmis KmAll :: F ++ kmis KmFrom :: en ++ [kmis KmLimit; TLit (LUInt n)]) e (RSelectAll f n).

(** the statements about spaces, models and accounts, as they are accepted (C60) *)
Inductive schema_stmt : list token -> stmt -> Prop :=
| ss_create_space r s : wf_create_space r s -> schema_stmt (kst KsCreate :: kmis KmSpace :: r) s
| ss_create_model r s : 10 <= length r -> wf_create_model r s -> schema_stmt (kst KsCreate :: kmis KmModel :: r) s
| ss_alter_space r s : wf_alter_space r s -> schema_stmt (kst KsAlter :: kmis KmSpace :: r) s
| ss_alter_model r s : wf_alter_model r s -> schema_stmt (kst KsAlter :: kmis KmModel :: r) s
| ss_drop_space r s : wf_drop_space r s -> schema_stmt (kst KsDrop :: kmis KmSpace :: r) s
| ss_drop_model r s : wf_drop_model r s -> schema_stmt (kst KsDrop :: kmis KmModel :: r) s
| ss_sysctl r s : wf_sysctl r s -> match s with SCreateUser _ _ | SAlterUser _ _ => 9 <= length r | _ => True end ->
    schema_stmt (kst KsSysctl :: r) s.

(** the statements that everyone may send *)
Definition for_all (s : stmt) : Prop := match s with SReportStatus => True | _ => False end.

(** what a text says *)
Inductive saying := SayData (id : ent) (q : rstmt) | SaySchema (s : stmt) | SayUse (u : use_req) | SayInspect (i : insp_req).

Section Says.
Variable u8 : bytes -> bool.
Variable fl : bytes -> option N.

(** the tokens of a text with its parameters (C34) *)
Definition reads_as (q p : bytes) (ts : list token) : Prop :=
  exists ts0 vs, toks q ts0 /\ params u8 fl p (holes ts0) vs /\ ts = fill ts0 vs.

Inductive says (gn : gens) (cs : option bytes) (q p : bytes) : saying -> Prop :=
| sy_data ts id st : reads_as q p ts -> data_stmt gn cs ts id st -> says gn cs q p (SayData id st)
| sy_schema ts s : reads_as q p ts -> schema_stmt ts s -> says gn cs q p (SaySchema s)
| sy_use r u : reads_as q p (kst KsUse :: r) -> wf_use r u -> says gn cs q p (SayUse u)
| sy_inspect r i : reads_as q p (kst KsInspect :: r) -> wf_inspect cs r i -> says gn cs q p (SayInspect i).
End Says.

(** ** Histories *)

(** the bytes that connection [j] received, read by read *)
Definition received1 (j : nat) (x : wev * wout) : list bytes :=
  match x with (WRecv j' _ _ ch, _) => if Nat.eq_dec j' j then [ch] else [] | _ => [] end.
Definition received (j : nat) (h : list (wev * wout)) : list bytes := flat_map (received1 j) h.

(** the server was restarted *)
Definition restarted (x : wev * wout) : Prop :=
  match x with (WBack (GRestart _ _), (_, Some (_, GoDone))) => True | _ => False end.

(** the events of the server underneath *)
Definition trace (h : list (wev * wout)) : list (gop * gout) :=
  flat_map (fun x => match snd (snd x) with Some e => [e] | None => [] end) h.

(** [P] is the packet of the query [q] with parameters [p], of which connection [j] has received [l], and
    which is completed by the bytes [ch] *)
Definition completed_by (l : list bytes) (ch q p : bytes) : Prop :=
  exists P, is_packet P q p /\ (len P < two64)%N /\ Forall (fun c => c <> []) l /\ ch <> [] /\ concat l ++ ch = P.
(** ... and it is not complete with [l] *)
Definition unfinished (l : list bytes) : Prop :=
  exists P q p ext, is_packet P q p /\ (len P < two64)%N /\ Forall (fun c => c <> []) l /\ ext <> [] /\ concat l ++ ext = P.

(** ** Answers *)

(** what a data statement's outcome is for the client, [w] being the number of columns of a SELECT ALL;
    [None]: no answer, the connection is closed *)
Definition reply (w : N) (r : gout) : option result :=
  match r with
  | GoStmt RoOk => Some ResEmpty
  | GoStmt (RoRow l) => Some (ResRow l)
  | GoStmt (RoRows l) => Some (ResRows w l)
  | GoStmt (RoErr e) => Some (ResError (dml_code e))
  | GoNoModel => Some (ResError 100)
  | _ => None
  end.
(** the same for the statements about spaces, models and accounts *)
Definition schema_reply (o : outcome) : option result :=
  match o with
  | OEmpty => Some ResEmpty
  | OBool b => Some (ResBool b)
  | OErr e => Some (ResError (ddl_code e))
  | OPanic => None
  end.

(** USE: the current space afterwards, and the answer *)
Inductive uses (there : bytes -> Prop) (cs : option bytes) : use_req -> option bytes -> result -> Prop :=
| us_null : uses there cs DdlSpec.RNull None ResEmpty
| us_space k : there k -> uses there cs (RSpace k) (Some k) ResEmpty
| us_no_space k : ~ there k -> uses there cs (RSpace k) cs (ResError 100)
| us_none : cs = None -> uses there cs RCurrent None ResNull
| us_current k : cs = Some k -> there k -> uses there cs RCurrent (Some k) (ResString k)
| us_gone k : cs = Some k -> ~ there k -> uses there cs RCurrent None (ResError 100).

(** the connection's bytes were those of an accepted login *)
Definition welcome : bytes := [Byte.x48; Byte.x00; Byte.x00; Byte.x00].

(** the answer to a handshake whose credentials are not accepted *)
Definition refusal : bytes := [Byte.x48; Byte.x00; Byte.x01; Byte.x05].

(** connection [j] is logged in on session [i], has the current space [cs] and waits for a packet; it is
    closed; the other connections are as before *)
Definition idle (x : wst) (j i : nat) (cs : option bytes) : Prop := nth_error (x_co x) j = Some (WcOn i cs qc_reset).
Definition closed (x : wst) (j : nat) : Prop := nth_error (x_co x) j = Some WcOff.
Definition others (j : nat) (x x' : wst) : Prop := forall j', j' <> j -> nth_error (x_co x') j' = nth_error (x_co x) j'.

(** the columns of the rows that SELECT ALL answers *)
Definition width (g : gst) (id : ent) (st : rstmt) : N :=
  match st with
  | RSelectAll (Some l) _ => N.of_nat (List.length l)
  | RSelectAll None _ => match aget ent_eqb id (g_nodes g) with Some nd => N.of_nat (List.length (lo_fields (m_lay (nd_m nd)))) | None => 0 end
  | _ => 0
  end.

(** the name and the password of an account *)
Definition account (verify : bytes -> bytes -> bool) (g : gst) (u p : bytes) : Prop :=
  exists a, aget bseq u (n_users (w_ns (sv_w (g_sv g)))) = Some a /\ p <> [] /\ verify p a = true.
(** connection [j] is in the handshake *)
Definition greeting (x : wst) (j : nat) : Prop := exists c, nth_error (x_co x) j = Some (WcHello c).

Section Sending.
Variable farith : aop -> N -> N -> N.
Variable order : fieldmap -> fieldmap.
Variable hash : bytes -> N -> bytes.
Variable verify : bytes -> bytes -> bool.
Variable u8 : bytes -> bool.
Variable fl : bytes -> option N.
Variable ftoa : N -> bytes.
(** after the history [h], connection [j], logged in on session [i] with the current space [cs], has sent
    [l] since it was last idle *)
Definition sending (C : gst -> gop -> gout -> Prop) (key : bytes) (salt : N) (h : list (wev * wout)) (x : wst) (j i : nat) (cs : option bytes) (l : list bytes) : Prop :=
  exists h1 x1 h2, h = h1 ++ h2 /\ whist farith order hash verify u8 fl ftoa C key salt h1 x1 /\ idle x1 j i cs /\
    wruns farith order hash verify u8 fl ftoa C x1 h2 x /\ Forall (fun e => ~ restarted e) h2 /\ received j h2 = l.
End Sending.

(** ** One model and one row *)

(** what is asked of the events as far as one model is concerned: no failed write to its file; UPDATEs
    that succeed or are refused in the harmless way (C20); no ALTER MODEL; restarts with its changes
    written *)
Definition mild (id : ent) (g : gst) (o : gop) (r : gout) : Prop :=
  match aget ent_eqb id (g_nodes g) with
  | None => True
  | Some nd =>
      match o with
      | GDml _ x (RUpdate _ asg) => x = id -> r = GoStmt RoOk \/
          (r <> GoStmt RoPanic /\ NoDup (map as_lhs asg) /\ Forall (fun a => ~ is_append (lo_fields (m_lay (nd_m nd))) a) asg)
      | GDdl _ _ (SAlterModel x _) => x = id -> r <> GoDdl OEmpty
      | GStep x w | GEnd x w => x = id -> w = WoOk
      | GRestart _ _ => m_queue (nd_m nd) = []
      | _ => True
      end
  end.
(** no forced DROP SPACE failed at the log (C12, C13) *)
Definition no_failed_force (x : gop * gout) : Prop :=
  match x with (GDdl _ _ (SDropSpace _ true _), GoDdl o) => o <> OErr ErrServer | _ => True end.
(** neither the row with key [k] of the model [id] nor the model was removed or changed by an
    acknowledged statement *)
Definition keeps (lay : layout) (id : ent) (k : pkey) (x : gop * gout) : Prop :=
  match x with
  | (GDml _ i (RUpdate w _), GoStmt RoOk) | (GDml _ i (RDelete w), GoStmt RoOk) => i = id -> asked lay w <> Some k
  | (GDdl _ _ (SDropModel i _ _), GoDdl (OEmpty | OBool true)) => i <> id
  | (GDdl _ _ (SDropSpace s _ _), GoDdl (OEmpty | OBool true)) => s <> fst id
  | _ => True
  end.
(** no acknowledged INSERT made a row with key [k] in the model [id], and the model was not dropped *)
Definition none_made (lay : layout) (id : ent) (k : pkey) (x : gop * gout) : Prop :=
  match x with
  | (GDml _ i (RInsert d), GoStmt RoOk) => i = id -> ins_key lay d <> k
  | (GDdl _ _ (SDropModel i _ _), GoDdl (OEmpty | OBool true)) => i <> id
  | (GDdl _ _ (SDropSpace s _ _), GoDdl (OEmpty | OBool true)) => s <> fst id
  | _ => True
  end.
