(** What a server that cannot start says: the thread-local context of an error (/repo/server/src/engine/fractal/context.rs), the conversions into [Error] and
    its text (fractal/error.rs), and the steps of the start that set the context (main.rs, engine/mod.rs, storage/mod.rs, storage/v2/mod.rs,
    storage/v1/{mod,loader}.rs, net/mod.rs). Texts are bytes. *)
From Coq Require Import List Arith NArith Bool Init.Byte String.
From Verif Require Import Bytes NumModel.
Import ListNotations.

(** context.rs:33-38 *)
Inductive subsys := SInit | SStorage | SDatabase | SNetwork.
(** [Subsystem::as_str], context.rs:41-48 *)
Definition subsys_str (s : subsys) : bytes :=
  match s with
  | SInit => bstr "init system"
  | SStorage => bstr "storage error"
  | SDatabase => bstr "engine error"
  | SNetwork => bstr "network error"
  end.
(** [LocalContext], context.rs:108-111; the two kinds of [Dmsg] (58-59) differ in ownership only *)
Record ctx := { c_origin : option subsys; c_dmsg : option bytes }.
(** [LocalContext::null], context.rs:189-191: what a thread starts with (193) *)
Definition ctx_null : ctx := {| c_origin := None; c_dmsg := None |}.
(** [set], context.rs:147; [set_dmsg], 151; [set_origin], 160 *)
Inductive ctxop := CSet (o : subsys) (d : bytes) | CDmsg (d : bytes) | COrigin (o : subsys).
(** context.rs:147, 151, 160 *)
Definition ctx_set (op : ctxop) (c : ctx) : ctx :=
  match op with
  | CSet o d => {| c_origin := Some o; c_dmsg := Some d |}
  | CDmsg d => {| c_origin := c_origin c; c_dmsg := Some d |}
  | COrigin o => {| c_origin := Some o; c_dmsg := c_dmsg c |}
  end.

(** [ErrorKind], error.rs:133-144, with the text of what it holds; configuration errors are reported before the start (main.rs:69-77) *)
Inductive fault := FIo (t : bytes) | FStorage (t : bytes) | FTxn (t : bytes) | FOther (t : bytes).
(** [Display for ErrorKind], error.rs:146-155 *)
Definition fault_str (f : fault) : bytes :=
  match f with
  | FIo t => bstr "io error: " ++ t
  | FStorage t => bstr "storage error: " ++ t
  | FTxn t => bstr "txn error: " ++ t
  | FOther t => bstr "error: " ++ t
  end.
(** [Error], fractal/error.rs:47-51 *)
Record serror := { se_kind : fault; se_origin : option subsys; se_dmsg : option bytes }.
(** [Display for Error], fractal/error.rs:95-107 *)
Definition serror_str (e : serror) : bytes :=
  match se_origin e with Some o => subsys_str o ++ bstr " error: " | None => bstr "runtime error: " end ++
  match se_dmsg e with Some d => d ++ bstr "; " | None => [] end ++
  fault_str (se_kind e).
(** The [From] conversions, with what they leave of the context: an I/O error copies the context (fractal/error.rs:116-120), a storage or transaction error takes
    it (299-317), an OpenSSL error has its own origin and takes the message (282-284) *)
Definition conv (f : fault) (c : ctx) : serror * ctx :=
  match f with
  | FIo _ => ({| se_kind := f; se_origin := c_origin c; se_dmsg := c_dmsg c |}, c)
  | FStorage _ | FTxn _ => ({| se_kind := f; se_origin := c_origin c; se_dmsg := c_dmsg c |}, ctx_null)
  | FOther _ => ({| se_kind := f; se_origin := Some SNetwork; se_dmsg := c_dmsg c |}, {| c_origin := c_origin c; c_dmsg := None |})
  end.
(** What becomes of the error of a call: [?]; [.set_dmsg(d)?] on a raw error (fractal/error.rs:202-204 with 133-135, 285-288); [.inherit_set_dmsg(d)?] on an
    [Error] (246-254 with 142-148) *)
Inductive wrap := WrPlain | WrOwn (d : bytes) | WrInherit (d : bytes).
(** as above *)
Definition wrap_err (w : wrap) (f : fault) (c : ctx) : serror * ctx :=
  match w with
  | WrPlain => conv f c
  | WrOwn d => ({| se_kind := f; se_origin := None; se_dmsg := Some d |}, c)
  | WrInherit d =>
      let (e, c') := conv f c in
      match se_origin e with
      | Some o => ({| se_kind := se_kind e; se_origin := Some o; se_dmsg := Some d |}, c')
      | None => ({| se_kind := se_kind e; se_origin := c_origin c'; se_dmsg := Some d |}, {| c_origin := None; c_dmsg := c_dmsg c' |})
      end
  end.

(** A call that can fail. [k_dropped]: the errors made into an [Error] inside it whose result is dropped, such as the [is_err] of
    storage/v1/raw/journal/raw.rs:245 and the [.ok()] of storage/common_encoding/r1/map.rs:218, 229, 234, 370, 380. [k_end]: the failure the call ends with *)
Record scall := { k_dropped : list fault; k_end : option fault }.
(** the dropped conversions one after the other; simplified: the calls come from outside the model *)
Definition drop_all (fs : list fault) (c : ctx) : ctx := fold_left (fun c f => snd (conv f c)) fs c.

(** What the server is doing at a call *)
Inductive doing :=
| DPid | DRuntime | DSignals
| DOldLoad | DOldModel (path : bytes) | DUpGns | DUpSpaces | DUpModels | DUpUsers
| DNew
| DGns | DModel (path : bytes) | DPassword
| DBind (host : bytes) (port : N) | DTls.
(** a piece of the start: a use of the context, or a call *)
Inductive sitem := ISet (op : ctxop) | ICall (d : doing) (w : wrap).

(** main.rs:84-100, on the main thread *)
Definition prog_init : list sitem :=
  [ISet (CSet SInit (bstr "locking PID file")); ICall DPid WrPlain;
   ISet (CSet SInit (bstr "initializing runtime")); ICall DRuntime WrPlain;
   ISet (CSet SInit (bstr "binding system signals")); ICall DSignals WrPlain].

(** What is on the disk (storage/mod.rs:62, 71, 77): an older install with the files of its models and its numbers of spaces, models and users; nothing;
    an install with the files of its models, and whether the root password differs from the configured one *)
Inductive install :=
| OldInstall (paths : list bytes) (spaces models users : nat)
| NewInstall
| V2Install (paths : list bytes) (repass : bool).
(** storage/v1/loader.rs:44-92 (the log, then each model) and storage/v1/mod.rs:47-69 (the system database, the backup directory, three moves) *)
Definition prog_v1 (paths : list bytes) : list sitem :=
  ICall DOldLoad WrPlain ::
  map (fun p => ICall (DOldModel p) (WrInherit (bstr "failed to restore model data from journal in `" ++ p ++ bstr "`"))) paths ++
  repeat (ICall DOldLoad WrPlain) 5.
(** storage/v2/mod.rs:57-99: two calls for a space, four for a model, one for a user *)
Definition prog_recreate (spaces models users : nat) : list sitem :=
  [ISet (CDmsg (bstr "creating gns")); ICall DUpGns WrPlain; ISet (CDmsg (bstr "creating all spaces"))] ++
  repeat (ICall DUpSpaces WrPlain) (2 * spaces) ++ [ISet (CDmsg (bstr "creating all models"))] ++
  repeat (ICall DUpModels WrPlain) (4 * models) ++ [ISet (CDmsg (bstr "creating all users"))] ++
  repeat (ICall DUpUsers WrPlain) users.
(** storage/v2/mod.rs:101-118 *)
Definition prog_new : list sitem := repeat (ICall DNew WrPlain) 3.
(** storage/v2/mod.rs:120-156 *)
Definition prog_restore (paths : list bytes) (repass : bool) : list sitem :=
  [ISet (CDmsg (bstr "loading gns")); ICall DGns WrPlain] ++
  flat_map (fun p => [ISet (CDmsg (bstr "loading model driver in " ++ p)); ICall (DModel p) WrPlain]) paths ++
  (if repass then [ISet (CDmsg (bstr "updating password to system database from configuration")); ICall DPassword WrPlain] else []).
(** engine/mod.rs:65-74 and storage/mod.rs:60-83, on a thread of the blocking pool *)
Definition prog_load (i : install) : list sitem :=
  ISet (COrigin SStorage) ::
  match i with
  | OldInstall paths s m u =>
      ISet (CDmsg (bstr "loading storage-v1 in compatibility mode")) :: prog_v1 paths ++
      ISet (CDmsg (bstr "upgrading storage-v1 to storage-v2 format")) :: prog_recreate s m u
  | NewInstall => ISet (CDmsg (bstr "creating databases")) :: prog_new
  | V2Install paths repass => ISet (CDmsg (bstr "loading databases")) :: prog_restore paths repass
  end.

(** [ConfigEndpoint], engine/mod.rs:131-148 *)
Inductive endpoints := EpTcp (h : bytes) (p : N) | EpTls (h : bytes) (p : N) | EpBoth (h : bytes) (p : N) (h2 : bytes) (p2 : N).
(** net/mod.rs:176-178 *)
Definition bind_item (h : bytes) (p : N) : sitem :=
  ICall (DBind h p) (WrOwn (bstr "failed to bind to port `" ++ h ++ bstr ":" ++ dec_u64 p ++ bstr "`")).
(** engine/mod.rs:136-137, 153-158 with net/mod.rs:247-259 *)
Definition tls_items : list sitem := [ISet (CDmsg (bstr "initializing TLS")); ICall DTls (WrOwn (bstr "failed to initialize TLS socket"))].
(** engine/mod.rs:116-172, on the main thread *)
Definition prog_start (e : endpoints) : list sitem :=
  [ISet (CDmsg (bstr "starting fractal engine")); ISet (CSet SNetwork (bstr "initializing endpoints"))] ++
  match e with
  | EpTcp h p => [bind_item h p]
  | EpTls h p => bind_item h p :: tls_items
  | EpBoth h p h2 p2 => bind_item h p :: bind_item h2 p2 :: tls_items
  end.

(** how a part of the start ends: an error at a call, or the context and the calls still to come *)
Inductive sres := SFail (d : doing) (e : serror) | SDone (c : ctx) (ks : list scall).
(** One thread's part of the start; each call takes the next outcome of [ks], and succeeds with nothing dropped when there is none *)
Fixpoint srun (prog : list sitem) (c : ctx) (ks : list scall) : sres :=
  match prog with
  | [] => SDone c ks
  | ISet op :: r => srun r (ctx_set op c) ks
  | ICall d w :: r =>
      match ks with
      | [] => srun r c []
      | k :: ks' =>
          let c1 := drop_all (k_dropped k) c in
          match k_end k with
          | None => srun r c1 ks'
          | Some f => SFail d (fst (wrap_err w f c1))
          end
      end
  end.
(** main.rs:83-114: the main thread, the blocking thread with a context of its own (main.rs:101), the main thread again. [None]: the server is listening *)
Definition boot (i : install) (e : endpoints) (ks : list scall) : option (doing * serror) :=
  match srun prog_init ctx_null ks with
  | SFail d er => Some (d, er)
  | SDone c ks1 =>
      match srun (prog_load i) ctx_null ks1 with
      | SFail d er => Some (d, er)
      | SDone _ ks2 =>
          match srun (prog_start e) c ks2 with
          | SFail d er => Some (d, er)
          | SDone _ _ => None
          end
      end
  end.
