(** The connections on top of the whole server (WholeModel.v): the bytes of every client are read in
    pieces, cut into packets, lexed, dispatched and executed, and the response is written:
    net/protocol/mod.rs, core/exec.rs. All paths are below /repo/server/src/engine/.

    Simplifications: a read with everything up to the next read of the same connection is one event, and
    so atomic (WholeModel.v says the same of a statement); what is written is written entirely; TLS is
    not modelled. *)
From Coq Require Import Strings.String List NArith Bool Arith.
From Verif Require Import Bytes AMap DataModel CodecModel GnsCodecModel NumModel NetModel GnsModel RowModel LexModel ParseModel DdlModel
  ExecModel InspectModel BatchModel UpgradeModel WholeModel.
Import ListNotations.
Local Open Scope N_scope.

(** a connection: in the handshake (net/protocol/mod.rs:240-277); in the query loop (163-229) with its
    session, the current space and the receive buffer; ended *)
Inductive wconn := WcHello (c : hconn) | WcOn (i : nat) (cs : option bytes) (c : qconn) | WcOff.

(** the server with its connections *)
Record wst := mk_wst { x_g : gst; x_co : list wconn }.

(** what the functions [@uuidstr()], [@uuidbin()] and [@timesec()] return in a statement (ParseModel.v) *)
Record gens := mk_gens { gn_text : nat -> bytes; gn_bin : nat -> bytes; gn_now : nat -> N }.

(** what happens: a client connects; connection [j] reads bytes (none: the client has closed it), with
    the outside inputs of a statement; background work or a restart *)
Inductive wev := WConnect | WRecv (j : nat) (en : env) (gn : gens) (chunk : bytes) | WBack (o : gop).

(** the events of WholeModel.v that do not come from a client *)
Definition is_back (o : gop) : bool :=
  match o with GLogin _ _ | GDdl _ _ _ | GDml _ _ _ => false | _ => true end.

(** ** Error codes: engine/error.rs:36-97 *)

(** [LexInvalidInput], [LexUnexpectedByte] *)
Definition lex_code (e : lexerr) : N := match e with LexInput => 25 | LexByte => 26 end.
(** error.rs:57-71 *)
Definition parse_code (e : ParseModel.perr) : N :=
  match e with EEnd => 27 | ESyntax => 28 | ECollection => 29 | ETypeDef => 30 | EExpEntity => 31 | EExpStmt => 32 | EUnknown => 33 end.
(** error.rs:51, 69-71 *)
Definition disp_code (e : derr) : N :=
  match e with DxPermission => 5 | DxExpected => 32 | DxUnknown => 33 | DxParse e => parse_code e end.
(** error.rs:40, 46, 51, 73-89, 96 *)
Definition ddl_code (e : qerr) : N :=
  match e with
  | ErrServer => 0 | ErrAuth => 3 | ErrPermission => 5 | ErrNotFound => 100 | ErrField => 101 | ErrProps => 102 | ErrExists => 103
  | ErrNotEmpty => 104 | ErrType => 105 | ErrBadDef => 106 | ErrAlter => 107 | ErrNeedLock => 112
  end.
(** error.rs:40, 75, 90-94 *)
Definition dml_code (e : rerr) : N :=
  match e with ESys => 0 | EField => 101 | EDup => 108 | EValid => 109 | EWhere => 110 | ENoRow => 111 | EAlter e => ddl_code e end.

(** ** Responses *)

(** [translate_ddl_result] and the other maps of core/exec.rs:96-102, 137-170, 192-196; [None]: panic *)
Definition ddl_resp (o : outcome) : option response :=
  match o with OEmpty => Some REmpty | OBool b => Some (RBool b) | OErr e => Some (RErr (ddl_code e)) | OPanic => None end.

(** the columns announced by SELECT ALL, core/dml/sel.rs:100, 127 *)
Definition ncols (nd : node) (cols : option (list bytes)) : N :=
  N.of_nat (match cols with None => length (lo_fields (m_lay (nd_m nd))) | Some l => length l end).

Section Wire.
Variable farith : aop -> N -> N -> N.
Variable order : fieldmap -> fieldmap.
Variable hash : bytes -> N -> bytes.
Variable verify : bytes -> bytes -> bool.
(** UTF-8 validation and the float parser, as in LexModel.v; the float formatter, as in NetModel.v *)
Variable u8 : bytes -> bool.
Variable fl : bytes -> option N.
Variable ftoa : N -> bytes.

(** [insert_resp], core/dml/ins.rs:42-47; [update_resp], core/dml/upd.rs:253-258; [delete_resp],
    core/dml/del.rs:37-42; [select_resp], [select_all_resp], core/dml/sel.rs:47-84. [None]: no
    response (panic; undefined behaviour is treated apart) *)
Definition dml_resp (g : gst) (id : ent) (q : rstmt) (r : rout) : option response :=
  match r with
  | RoOk => Some REmpty
  | RoRow l => Some (select_resp ftoa l)
  | RoRows l =>
      match aget ent_eqb id (g_nodes g), q with
      | Some nd, RSelectAll cols _ => Some (select_all_resp ftoa (ncols nd cols) l)
      | _, _ => None
      end
  | RoErr e => Some (RErr (dml_code e))
  | RoPanic | RoUb => None
  end.

(** the data statement in a request with the model it names *)
Definition dml_of (r : request) : option (ent * rstmt) :=
  match r with
  | RqInsert i => Some (in_entity i, RInsert (in_data i))
  | RqSelect s => Some (se_entity s, RSelect (se_where s) (se_fields s))
  | RqSelectAll s => Some (sa_entity s, RSelectAll (sa_fields s) (sa_limit s))
  | RqUpdate u => Some (up_entity u, RUpdate (up_where u) (up_set u))
  | RqDelete d => Some (de_entity d, RDelete (de_where d))
  | RqDdl _ | RqUse _ | RqInspect _ => None
  end.

(** the outcome of a query: it cannot run now (it waits for a flush); undefined behaviour; the task of the
    connection dies; an answer with the current space afterwards. The event of WholeModel.v that it was
    is kept for the statements of the theorems. *)
Inductive pdone := PdOff | PdUb | PdDead (g : gst) (d : option (gop * gout)) | PdSay (g : gst) (cs : option bytes) (r : response) (d : option (gop * gout)).

(** the answer of USE, core/exec.rs:202-238 *)
Definition use_resp (a : answer unit) : response :=
  match a with AnEmpty _ => REmpty | AnNull _ => RNull | AnName _ k => string_resp k | _ => RErr 100 end.

(** [dispatch_to_executor], core/exec.rs:44-64, on session [i]. A model that is not there:
    core/mod.rs:146-149, 183-185. *)
Definition perform (g : gst) (i : nat) (cs : option bytes) (en : env) (gn : gens) (q p : bytes) : pdone :=
  match nth_error (sv_sess (g_sv g)) i with
  | None => PdOff
  | Some se =>
      match lex u8 fl q p with
      | LexErr e => PdSay g cs (RErr (lex_code e)) None
      | LexFuel => PdOff
      | LexOk ts =>
          match dispatch (gn_text gn) (gn_bin gn) (gn_now gn) (se_root se) cs ts with
          | DErr e => PdSay g cs (RErr (disp_code e)) None
          | DPanic => PdDead g None
          | DFuel => PdOff
          | DUb => PdUb
          | DReq (RqDdl s) =>
              match gstep farith order hash verify g (GDdl i en s) with
              | Some (g', GoDdl o) =>
                  let d := Some (GDdl i en s, GoDdl o) in
                  match ddl_resp o with Some r => PdSay g' cs r d | None => PdDead g' d end
              | _ => PdOff
              end
          | DReq (RqUse u) =>
              let '(c, a) := do_use unit (mk_conn se cs) (w_ns (sv_w (g_sv g))) u in PdSay g (c_cs c) (use_resp a) None
          | DReq (RqInspect n) =>
              PdSay g cs (match inspect_text (se_root se) (w_ns (sv_w (g_sv g))) (fun id => rows_at id g) n with
                          | Some t => string_resp t | None => RErr 100 end) None
          | DReq r =>
              match dml_of r with
              | None => PdOff
              | Some (id, st) =>
                  match gstep farith order hash verify g (GDml i id st) with
                  | Some (g', GoStmt RoUb) => PdUb
                  | Some (g', GoStmt o) =>
                      let d := Some (GDml i id st, GoStmt o) in
                      match dml_resp g id st o with Some r => PdSay g' cs r d | None => PdDead g' d end
                  | Some (g', GoNoModel) => PdSay g' cs (RErr 100) (Some (GDml i id st, GoNoModel))
                  | _ => PdOff
                  end
              end
          end
      end
  end.

(** connection [j] becomes [c] *)
Fixpoint put_nth {A} (j : nat) (c : A) (l : list A) : list A :=
  match l, j with
  | [], _ => []
  | _ :: l', O => c :: l'
  | a :: l', S j' => a :: put_nth j' c l'
  end.

(** what an event writes to its connection, and which event of WholeModel.v it was *)
Definition wout : Type := bytes * option (gop * gout).

(** the refusal of a handshake, net/protocol/mod.rs:153-158 *)
Definition hs_refuse (e : NetModel.perr) : bytes := [x48; x00; x01; n2b (perr_code e)].

(** one read in the handshake: net/protocol/mod.rs:249-316, 149-164. The bytes after the handshake stay in
    the buffer (307). *)
Definition read_hello (x : wst) (j : nat) (c : hconn) (ch : bytes) : option (wst * wout) :=
  let become w g := mk_wst g (put_nth j w (x_co x)) in
  match hs_read c ch with
  | HWait c' => Some (become (WcHello c') (x_g x), ([], None))
  | HFinal u p unread =>
      if u8 u then
        match gstep farith order hash verify (x_g x) (GLogin u p) with
        | Some (g', r) =>
            match r with
            | GoSys (OutLogin true) =>
                Some (become (WcOn (length (sv_sess (g_sv (x_g x)))) None {| qc_buf := unread; qc_cur := 0; qc_st := q_new |}) g',
                      ([x48; x00; x00; x00], Some (GLogin u p, r)))
            | _ => Some (become WcOff g', (hs_refuse PAuth, Some (GLogin u p, r)))
            end
        | None => None
        end
      else Some (become WcOff (x_g x), (hs_refuse PAuth, None))
  | HReject e => Some (become WcOff (x_g x), (hs_refuse e, None))
  | HClosed | HCrash => Some (become WcOff (x_g x), ([], None))
  | HUnsafe => None
  end.

(** one read in the query loop: net/protocol/mod.rs:165-229. A read whose statement has to wait for a
    flush is not an event yet ([None]): the connection does nothing in between. *)
Definition read_query (x : wst) (j i : nat) (cs : option bytes) (c : qconn) (en : env) (gn : gens) (ch : bytes) : option (wst * wout) :=
  let become w g := mk_wst g (put_nth j w (x_co x)) in
  match q_read c ch with
  | QWait c' => Some (become (WcOn i cs c') (x_g x), ([], None))
  | QEmit EvIllegal c' => Some (become (WcOn i cs c') (x_g x), (respond (RErr 6), None))
  | QEmit (EvQuery q p) c' =>
      match perform (x_g x) i cs en gn q p with
      | PdOff | PdUb => None
      | PdDead g' d => Some (become WcOff g', ([], d))
      | PdSay g' cs' r d => Some (become (WcOn i cs' c') g', (respond r, d))
      end
  | QClosed | QCrash => Some (become WcOff (x_g x), ([], None))
  end.

(** one event; [None]: undefined behaviour, a statement that has to wait, no such connection, or the
    server does not come up again. A restart ends every connection. *)
Definition wstep (x : wst) (e : wev) : option (wst * wout) :=
  match e with
  | WConnect => Some (mk_wst (x_g x) (x_co x ++ [WcHello hc_init]), ([], None))
  | WRecv j en gn ch =>
      match nth_error (x_co x) j with
      | Some (WcHello c) => read_hello x j c ch
      | Some (WcOn i cs c) => read_query x j i cs c en gn ch
      | _ => None
      end
  | WBack o =>
      if is_back o then
        match gstep farith order hash verify (x_g x) o with
        | Some (g', r) =>
            Some (mk_wst g' (match o, r with GRestart _ _, GoDone => map (fun _ => WcOff) (x_co x) | _, _ => x_co x end), ([], Some (o, r)))
        | None => None
        end
      else None
  end.

(** a new installation *)
Definition wstart (key : bytes) (salt : N) : wst := mk_wst (gstart hash key salt) [].

(** the histories in which every event of WholeModel.v satisfies [C]; they end like [ghist] *)
Inductive wruns (C : gst -> gop -> gout -> Prop) (x0 : wst) : list (wev * wout) -> wst -> Prop :=
| wr_nil : wruns C x0 [] x0
| wr_snoc h x e x' b d : wruns C x0 h x -> wstep x e = Some (x', (b, d)) ->
    match d with
    | Some (o, r) => C (x_g x) o r /\ r <> GoFlush BoUb /\ r <> GoFlush BoPanic /\ r <> GoStmt RoUb
    | None => True
    end -> wruns C x0 (h ++ [(e, (b, d))]) x'.
(** as above *)
Definition whist (C : gst -> gop -> gout -> Prop) (key : bytes) (salt : N) := wruns C (wstart key salt).
End Wire.
