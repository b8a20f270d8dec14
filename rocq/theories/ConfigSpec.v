(** What a start-up configuration is, from the documentation in help_text/help and the messages of
    config.rs: texts of settings, command lines, environments. Uses only the data types of
    ConfigModel.v, none of its functions. *)
From Coq Require Import Strings.String.
From Coq Require Import List NArith Bool.
From Verif Require Import Bytes ConfigModel.
Import ListNotations.
Local Open Scope string_scope.
Local Open Scope list_scope.
Local Open Scope N_scope.

Definition free (c : byte) (s : bytes) : Prop := ~ In c s.

(** ** Texts *)

(** digits, most significant first *)
Inductive decimal : bytes -> N -> Prop :=
| dec_one b d : d < 10 -> b2n b = 48 + d -> decimal [b] d
| dec_more s n b d : decimal s n -> d < 10 -> b2n b = 48 + d -> decimal (s ++ [b]) (10 * n + d).
(** a number up to [max], with or without a plus sign *)
Definition number (max : N) (s : bytes) (n : N) : Prop :=
  n <= max /\ (decimal s n \/ exists s', s = bstr "+" ++ s' /\ decimal s' n).
(** [protocol@host:port] *)
Definition ep_text (pr : proto) (s host : bytes) (port : N) : Prop :=
  exists t, s = (match pr with PTcp => bstr "tcp" | PTls => bstr "tls" end) ++ bstr "@" ++ host ++ bstr ":" ++ t /\
    free x40 host /\ free x3a host /\ number 65535 t port.

(** ** Settings: which values each option was given, in order *)

Inductive opt := OPlugin | ORoot | OCert | OKey | OPass | OEndpoint | OMode | OWindow.
Definition all_opts : list opt := [OPlugin; ORoot; OCert; OKey; OPass; OEndpoint; OMode; OWindow].
Definition cli_name (o : opt) : bytes :=
  match o with
  | OPlugin => bstr "--auth-plugin" | ORoot => bstr "--auth-root-password" | OCert => bstr "--tlscert" | OKey => bstr "--tlskey"
  | OPass => bstr "--tls-passphrase" | OEndpoint => bstr "--endpoint" | OMode => bstr "--mode" | OWindow => bstr "--service-window"
  end.
Definition env_name (o : opt) : bytes :=
  match o with
  | OPlugin => bstr "SKYDB_AUTH_PLUGIN" | ORoot => bstr "SKYDB_AUTH_ROOT_PASSWORD" | OCert => bstr "SKYDB_TLS_CERT" | OKey => bstr "SKYDB_TLS_KEY"
  | OPass => bstr "SKYDB_TLS_PRIVATE_KEY_PASSWORD" | OEndpoint => bstr "SKYDB_ENDPOINTS" | OMode => bstr "SKYDB_RUN_MODE"
  | OWindow => bstr "SKYDB_SERVICE_WINDOW"
  end.

Section Files.
Variable files : bytes -> option bytes.
Section Vals.
Variable vals : opt -> list bytes.

Definition no_tls_options : Prop := vals OCert = [] /\ vals OKey = [] /\ vals OPass = [].
(** certificate, key and passphrase are given once each, as names of readable files *)
Definition tls_of (t : tcp_ep) (s : tls_ep) : Prop :=
  s_tcp s = t /\
  (exists p, vals OCert = [p] /\ files p = Some (s_cert s)) /\
  (exists p, vals OKey = [p] /\ files p = Some (s_key s)) /\
  (exists p, vals OPass = [p] /\ files p = Some (s_pass s)).
(** at most one endpoint of each kind; the default is local TCP; the TLS options go with a TLS endpoint *)
Inductive eps_of : list bytes -> endpoint -> Prop :=
| ep_default : no_tls_options -> eps_of [] (EpInsecure (mk_tcp (bstr "127.0.0.1") 2003))
| ep_tcp e h p : ep_text PTcp e h p -> no_tls_options -> eps_of [e] (EpInsecure (mk_tcp h p))
| ep_tls e h p s : ep_text PTls e h p -> tls_of (mk_tcp h p) s -> eps_of [e] (EpSecure s)
| ep_both e1 h1 p1 e2 h2 p2 s : ep_text PTcp e1 h1 p1 -> ep_text PTls e2 h2 p2 -> tls_of (mk_tcp h2 p2) s ->
    eps_of [e1; e2] (EpMulti (mk_tcp h1 p1) s)
| ep_both' e1 h1 p1 e2 h2 p2 s : ep_text PTcp e1 h1 p1 -> ep_text PTls e2 h2 p2 -> tls_of (mk_tcp h2 p2) s ->
    eps_of [e2; e1] (EpMulti (mk_tcp h1 p1) s).

Record settled (c : config) : Prop := mk_settled {
  st_root : exists p, vals ORoot = [p] /\ 16 <= len p /\ c_root c = p;
  st_plugin : c_auth c = Pwd /\ (vals OPlugin = [] \/ vals OPlugin = [bstr "pwd"]);
  st_mode : (vals OMode = [] /\ c_mode c = Dev) \/ (vals OMode = [bstr "dev"] /\ c_mode c = Dev) \/
            (vals OMode = [bstr "prod"] /\ c_mode c = Prod);
  st_window : (vals OWindow = [] /\ c_window c = 300) \/
              (exists t, vals OWindow = [t] /\ number 18446744073709551615 t (c_window c) /\ c_window c <> 0);
  st_eps : eps_of (vals OEndpoint) (c_ep c) }.
End Vals.

(** ** Complaints *)

(** what each complaint about settings says of them; [nm]: how options are called, [extra]: an option was
    given that is none of the eight *)
Definition fault (nm : opt -> bytes) (vals : opt -> list bytes) (extra : Prop) (k : ckind) : Prop :=
  match k with
  | ETooMany key => exists o, key = nm o /\ (2 <= List.length (vals o))%nat /\ (o = OEndpoint -> (3 <= List.length (vals o))%nat)
  | EInvalid key => exists o v, key = nm o /\ vals o = [v] /\
      match o with
      | OPlugin => v <> bstr "pwd"
      | OMode => v <> bstr "dev" /\ v <> bstr "prod"
      | OWindow => forall n, ~ number 18446744073709551615 v n
      | _ => False
      end
  | ENeedAuth key => exists o, key = nm o /\ vals o = [] /\ o = ORoot
  | EEpSyntax => exists e, In e (vals OEndpoint) /\ forall pr h p, ~ ep_text pr e h p
  | ENeedTls => (exists e h p, In e (vals OEndpoint) /\ ep_text PTls e h p) /\ (vals OCert = [] \/ vals OKey = [] \/ vals OPass = [])
  | EDupEndpoints => exists pr e1 h1 p1 e2 h2 p2, vals OEndpoint = [e1; e2] /\ ep_text pr e1 h1 p1 /\ ep_text pr e2 h2 p2
  | EUnknownArgs => extra \/ (~ no_tls_options vals /\ forall e h p, In e (vals OEndpoint) -> ~ ep_text PTls e h p)
  | EWindow => exists t, vals OWindow = [t] /\ number 18446744073709551615 t 0
  | EShortPassword => exists p, vals ORoot = [p] /\ len p < 16
  | _ => False
  end.

(** ** Command lines *)

(** a list of arguments as options with their values: [--name value] or [--name=value] *)
Inductive cmdline : list bytes -> list (bytes * bytes) -> Prop :=
| cm_nil : cmdline [] []
| cm_eq k v l ps : free x3d k -> free x3d v -> (exists r, k ++ bstr "=" ++ v = bstr "--" ++ r) ->
    (5 <= List.length (k ++ bstr "=" ++ v))%nat -> cmdline l ps -> cmdline ((k ++ bstr "=" ++ v) :: l) ((k, v) :: ps)
| cm_sp k v l ps : free x3d k -> (exists r, k = bstr "--" ++ r) -> k <> bstr "--help" -> k <> bstr "--version" ->
    cmdline l ps -> cmdline (k :: v :: l) ((k, v) :: ps).
(** the values given for a name *)
Fixpoint values (k : bytes) (ps : list (bytes * bytes)) : list bytes :=
  match ps with
  | [] => []
  | (k', v) :: ps' => if list_eq_dec Byte.byte_eq_dec k k' then v :: values k ps' else values k ps'
  end.

(** ** Environments: several values are separated by commas *)
Fixpoint join (l : list bytes) : bytes :=
  match l with
  | [] => []
  | [x] => x
  | x :: l' => x ++ bstr "," ++ join l'
  end.
Definition env_has (env : bytes -> envvar) (vals : opt -> list bytes) : Prop :=
  forall o, match env (env_name o) with
            | NotPresent => vals o = []
            | NotUnicode => False
            | Var v => vals o <> [] /\ Forall (free x2c) (vals o) /\ v = join (vals o)
            end.
Definition env_empty (env : bytes -> envvar) : Prop := forall o, env (env_name o) = NotPresent.

(** ** Files *)
Inductive file_ep : option (option tls_ep * option tcp_ep) -> endpoint -> Prop :=
| fe_default : file_ep None (EpInsecure (mk_tcp (bstr "127.0.0.1") 2003))
| fe_default' : file_ep (Some (None, None)) (EpInsecure (mk_tcp (bstr "127.0.0.1") 2003))
| fe_tcp t : file_ep (Some (None, Some t)) (EpInsecure t)
| fe_tls s s' : s_tcp s' = s_tcp s -> files (s_cert s) = Some (s_cert s') -> files (s_key s) = Some (s_key s') ->
    files (s_pass s) = Some (s_pass s') -> file_ep (Some (Some s, None)) (EpSecure s')
| fe_both s s' t : s_tcp s' = s_tcp s -> files (s_cert s) = Some (s_cert s') -> files (s_key s) = Some (s_key s') ->
    files (s_pass s) = Some (s_pass s') -> file_ep (Some (Some s, Some t)) (EpMulti t s').
Record file_settled (d : decoded) (c : config) : Prop := mk_file_settled {
  fs_auth : k_auth d = Some (c_auth c, c_root c) /\ 16 <= len (c_root c);
  fs_mode : match k_system d with Some (Some m, _) => c_mode c = m | _ => c_mode c = Dev end;
  fs_window : c_window c <> 0 /\ match k_system d with Some (_, Some w) => c_window c = w | _ => c_window c = 300 end;
  fs_eps : file_ep (k_endpoints d) (c_ep c) }.

(** ** The configuration of a start: from exactly one of the three sources *)
Variable yaml : bytes -> option decoded.
Inductive configured (argv : list bytes) (env : bytes -> envvar) (c : config) : Prop :=
| by_cli ps : env_empty env -> cmdline (tl argv) ps -> Forall (fun p => exists o, fst p = cli_name o) ps ->
    settled (fun o => values (cli_name o) ps) c -> configured argv env c
| by_env vals : tl argv = [] -> env_has env vals -> settled vals c -> configured argv env c
| by_file f t d : env_empty env -> cmdline (tl argv) [(bstr "--config", f)] -> files f = Some t -> yaml t = Some d ->
    file_settled d c -> configured argv env c.
End Files.
