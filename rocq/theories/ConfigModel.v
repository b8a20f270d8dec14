(** Model of the start-up configuration, /repo/server/src/engine/config.rs (all line numbers refer to it
    unless another file is named). Strings are their UTF-8 bytes. Variables: the process's arguments and
    environment are inputs; [files] is [fs::read_to_string] (None: the file is missing or not UTF-8);
    [yaml] is [serde_yaml::from_str] of a [DecodedConfiguration]. Not modelled: log messages, the text of
    the help message. *)
From Coq Require Import Strings.String.
From Coq Require Import List NArith Bool Init.Byte.
From Verif Require Import Bytes AMap.
Import ListNotations.
Local Open Scope N_scope.
Local Open Scope string_scope.
Local Open Scope list_scope.
Local Open Scope N_scope.

(** [==] of strings *)
Fixpoint beqb (a b : bytes) : bool :=
  match a, b with
  | [], [] => true
  | x :: a', y :: b' => Byte.eqb x y && beqb a' b'
  | _, _ => false
  end.

(** [str::split] with a pattern of one ASCII character: always at least one piece *)
Fixpoint split_on (c : byte) (s : bytes) : list bytes :=
  match s with
  | [] => [[]]
  | x :: s' =>
      if Byte.eqb x c then [] :: split_on c s' else
      match split_on c s' with
      | p :: ps => (x :: p) :: ps
      | [] => [[x]] (* does not happen *)
      end
  end.

(** [str::starts_with] *)
Fixpoint starts_with (p s : bytes) : bool :=
  match p, s with
  | [], _ => true
  | x :: p', y :: s' => Byte.eqb x y && starts_with p' s'
  | _, [] => false
  end.

(** The standard library's [u16::from_str] and [u64::from_str]: an optional plus sign, at least one digit,
    nothing else, no overflow *)
Fixpoint digits (max acc : N) (s : bytes) : option N :=
  match s with
  | [] => Some acc
  | x :: s' =>
      if (48 <=? b2n x) && (b2n x <=? 57) then
        let n := acc * 10 + (b2n x - 48) in
        if n <=? max then digits max n s' else None
      else None
  end.
(** [str::parse] of the standard library, used at config.rs:452 and for the window *)
Definition parse_uint (max : N) (s : bytes) : option N :=
  match s with
  | [] => None
  | x :: s' =>
      if b2n x =? 43 then match s' with [] => None | _ => digits max 0 s' end
      else digits max 0 s
  end.
(** the largest value of the type, as [u16::MAX] and [u64::MAX] *)
Definition u16_max : N := 65535.
(** the largest value of the type, as [u16::MAX] and [u64::MAX] *)
Definition u64_max : N := 18446744073709551615.

(** ** Configurations *)

(** [ConfigMode], 187-194 *)
Inductive cmode := Dev | Prod.
(** [AuthDriver], 220-223 *)
Inductive authdrv := Pwd.
(** [ConfigEndpointTcp], 125-128 *)
Record tcp_ep := mk_tcp { t_host : bytes; t_port : N }.
(** [ConfigEndpointTls], 145-150; also [DecodedEPSecureConfig], 281-287 *)
Record tls_ep := mk_tls { s_tcp : tcp_ep; s_cert : bytes; s_key : bytes; s_pass : bytes }.
(** [ConfigEndpoint], 117-121 *)
Inductive endpoint := EpInsecure (t : tcp_ep) | EpSecure (s : tls_ep) | EpMulti (t : tcp_ep) (s : tls_ep).
(** [Configuration], 76-81, with [ConfigSystem] 202-205 and [ConfigAuth] 226-229 inlined *)
Record config := mk_config { c_ep : endpoint; c_mode : cmode; c_window : N; c_auth : authdrv; c_root : bytes }.

(** [DecodedConfiguration], 243-247, with [DecodedSystemConfig] 267-270 ([mode], [rs_window]),
    [DecodedEPConfig] 274-277 and [DecodedAuth] 260-263 *)
Record decoded := mk_decoded {
  k_system : option (option cmode * option N);
  k_endpoints : option (option tls_ep * option tcp_ep);
  k_auth : option (authdrv * bytes) }.
(** [DecodedConfiguration::default], 249-257 *)
Definition decoded0 : decoded := mk_decoded None None None.

(** ** Errors *)

(** [ConfigSource], 350-357 *)
Inductive csrc := SCli | SEnv | SFile.
(** [ConfigErrorKind], 372-377: the messages as constructors, with the names they mention *)
Inductive ckind :=
  | EConflict
  | EInvalid (key : bytes)       (* "Invalid value for {key}", 391-396 *)
  | ETooMany (key : bytes)       (* "Too many values for {key}", 398-403 *)
  | EEpSyntax                    (* 433-441 *)
  | ENeedTls                     (* 496-506 *)
  | ENeedAuth (key : bytes)      (* "to enable auth, you must provide values for {key}", 530-537 *)
  | EDupEndpoints                (* 577-581 *)
  | EUnexpected (arg : bytes)    (* 684-688 *)
  | EBadArg (arg : bytes)        (* 701-705 *)
  | EMissingValue (arg : bytes)  (* 708-712 *)
  | EEnvValue (key : bytes)      (* 757-761 *)
  | EUnknownArgs                 (* 826-830 *)
  | ENoRoot                      (* 909-916 *)
  | EWindow                      (* 958-961 *)
  | EShortPassword               (* 962-965 *)
  | EYaml                        (* 1158-1166 *)
  | ENoConfig.                   (* 1137-1140 *)
(** [RuntimeResult]: a value, a configuration error with its source, an error of the file system, a panic *)
Inductive cres (A : Type) := COk (a : A) | CErr (s : option csrc) (k : ckind) | CIo | CPanic.
Arguments COk {A}. Arguments CErr {A}. Arguments CIo {A}. Arguments CPanic {A}.
(** the [?] operator *)
Definition cbind {A B} (x : cres A) (f : A -> cres B) : cres B :=
  match x with COk a => f a | CErr s k => CErr s k | CIo => CIo | CPanic => CPanic end.

(** ** Sources *)

(** [ParsedRawArgs], 38 *)
Definition rawargs := list (bytes * list bytes).
(** [get] and [remove] of the [HashMap] of 38 *)
Definition rget (k : bytes) (m : rawargs) : option (list bytes) := aget beqb k m.
(** [get] and [remove] of the [HashMap] of 38 *)
Definition rdel (k : bytes) (m : rawargs) : rawargs := adel beqb k m.

(** [ConfigurationSource], 380-389 *)
Record source := mk_source {
  n_driver : bytes; n_root : bytes; n_cert : bytes; n_key : bytes; n_pkp : bytes;
  n_ep : bytes; n_mode : bytes; n_window : bytes; n_src : csrc }.
(** [CSCommandLine], 840-854 *)
Definition src_cli : source := mk_source (bstr "--auth-plugin") (bstr "--auth-root-password") (bstr "--tlscert")
  (bstr "--tlskey") (bstr "--tls-passphrase") (bstr "--endpoint") (bstr "--mode") (bstr "--service-window") SCli.
(** [ARG_CONFIG_FILE], 842 *)
Definition arg_config : bytes := bstr "--config".
(** [CSEnvArgs], 856-867 *)
Definition src_env : source := mk_source (bstr "SKYDB_AUTH_PLUGIN") (bstr "SKYDB_AUTH_ROOT_PASSWORD") (bstr "SKYDB_TLS_CERT")
  (bstr "SKYDB_TLS_KEY") (bstr "SKYDB_TLS_PRIVATE_KEY_PASSWORD") (bstr "SKYDB_ENDPOINTS") (bstr "SKYDB_RUN_MODE")
  (bstr "SKYDB_SERVICE_WINDOW") SEnv.

(** ** Options *)

(** [argck_duplicate_values], 411-419 *)
Definition argck_dup (cs : source) (v : list bytes) (key : bytes) : cres unit :=
  match v with [_] => COk tt | _ => CErr (Some (n_src cs)) (ETooMany key) end.
(** [v[0]]: panics on an empty vector *)
Definition first (v : list bytes) : cres bytes := match v with x :: _ => COk x | [] => CPanic end.

(** [ConnectionProtocol], 426-429 *)
Inductive proto := PTcp | PTls.
(** [parse_endpoint], 432-461 *)
Definition parse_endpoint (sc : csrc) (s : bytes) : cres (proto * bytes * N) :=
  let err := CErr (Some sc) EEpSyntax in
  match split_on x40 s with
  | [pr; hp] =>
      match split_on x3a hp with
      | [host; port] =>
          match parse_uint u16_max port with
          | None => err
          | Some port =>
              if beqb pr (bstr "tcp") then COk (PTcp, host, port)
              else if beqb pr (bstr "tls") then COk (PTls, host, port)
              else err
          end
      | _ => err
      end
  | _ => err
  end.

Section Files.
Variable files : bytes -> option bytes.
(** [fs::read_to_string(path)?] *)
Definition read_file (p : bytes) : cres bytes := match files p with Some t => COk t | None => CIo end.

(** [decode_tls_ep], 464-482: the key is read first *)
Definition decode_tls_ep (cert key pkp host : bytes) (port : N) : cres tls_ep :=
  cbind (read_file key) (fun k => cbind (read_file cert) (fun c => cbind (read_file pkp) (fun p =>
    COk (mk_tls (mk_tcp host port) c k p)))).

(** [arg_decode_tls_endpoint], 485-518; the three options are taken out of the arguments. The source in
    the error is always the command line (497). *)
Definition arg_decode_tls (cs : source) (args : rawargs) (host : bytes) (port : N) : cres (rawargs * tls_ep) :=
  let c := rget (n_cert cs) args in let args := rdel (n_cert cs) args in
  let k := rget (n_key cs) args in let args := rdel (n_key cs) args in
  let p := rget (n_pkp cs) args in let args := rdel (n_pkp cs) args in
  match c, k, p with
  | Some c, Some k, Some p =>
      cbind (argck_dup cs c (n_cert cs)) (fun _ => cbind (argck_dup cs k (n_key cs)) (fun _ => cbind (argck_dup cs p (n_pkp cs)) (fun _ =>
      cbind (first c) (fun c0 => cbind (first k) (fun k0 => cbind (first p) (fun p0 =>
      cbind (decode_tls_ep c0 k0 p0 host port) (fun ep => COk (args, ep))))))))
  | _, _, _ => CErr (Some SCli) ENeedTls
  end.

(** [arg_decode_auth], 524-552. The name in the errors about the password is that of the plugin (534, 542). *)
Definition arg_decode_auth (cs : source) (args : rawargs) (cfg : decoded) : cres (rawargs * decoded) :=
  let drv := rget (n_driver cs) args in let args := rdel (n_driver cs) args in
  match rget (n_root cs) args with
  | None => CErr (Some (n_src cs)) (ENeedAuth (n_driver cs))
  | Some root =>
      let args := rdel (n_root cs) args in
      cbind (match drv with Some d => argck_dup cs d (n_driver cs) | None => COk tt end) (fun _ =>
      cbind (argck_dup cs root (n_driver cs)) (fun _ =>
      cbind (match drv with
             | None => COk Pwd
             | Some d => cbind (first d) (fun d0 => if beqb d0 (bstr "pwd") then COk Pwd else CErr (Some (n_src cs)) (EInvalid (n_driver cs)))
             end) (fun plugin =>
      cbind (first root) (fun r0 =>
      COk (args, mk_decoded (k_system cfg) (k_endpoints cfg) (Some (plugin, r0)))))))
  end.

(** the loop of [arg_decode_endpoints], 567-584 *)
Fixpoint endpoints_loop (cs : source) (eps : list bytes) (args : rawargs) (insecure : option tcp_ep) (secure : option tls_ep)
    : cres (rawargs * (option tls_ep * option tcp_ep)) :=
  match eps with
  | [] => COk (args, (secure, insecure))
  | e :: eps' =>
      cbind (parse_endpoint (n_src cs) e) (fun '(pr, host, port) =>
      match pr, insecure, secure with
      | PTcp, None, _ => endpoints_loop cs eps' args (Some (mk_tcp host port)) secure
      | PTls, _, None => cbind (arg_decode_tls cs args host port) (fun '(args, s) => endpoints_loop cs eps' args insecure (Some s))
      | _, _, _ => CErr (Some (n_src cs)) EDupEndpoints
      end)
  end.
(** [arg_decode_endpoints], 555-589 *)
Definition arg_decode_endpoints (cs : source) (args : rawargs) (cfg : decoded) : cres (rawargs * decoded) :=
  match rget (n_ep cs) args with
  | None => COk (args, cfg)
  | Some eps =>
      let args := rdel (n_ep cs) args in
      match eps with
      | _ :: _ :: _ :: _ => CErr (Some (n_src cs)) (ETooMany (n_ep cs))
      | _ =>
          cbind (endpoints_loop cs eps args None None) (fun '(args, (secure, insecure)) =>
          match secure, insecure with
          | None, None => COk (args, cfg)
          | _, _ => COk (args, mk_decoded (k_system cfg) (Some (secure, insecure)) (k_auth cfg))
          end)
      end
  end.

(** [arg_decode_mode], 594-614 *)
Definition arg_decode_mode (cs : source) (v : list bytes) (cfg : decoded) : cres decoded :=
  cbind (argck_dup cs v (n_mode cs)) (fun _ => cbind (first v) (fun m =>
  cbind (if beqb m (bstr "dev") then COk Dev else if beqb m (bstr "prod") then COk Prod
         else CErr (Some (n_src cs)) (EInvalid (n_mode cs))) (fun mode =>
  COk (mk_decoded (Some (match k_system cfg with Some (_, w) => (Some mode, w) | None => (Some mode, None) end))
    (k_endpoints cfg) (k_auth cfg))))).

(** [arg_decode_rs_window], 617-635 *)
Definition arg_decode_window (cs : source) (v : list bytes) (cfg : decoded) : cres decoded :=
  cbind (argck_dup cs v (n_window cs)) (fun _ => cbind (first v) (fun t =>
  match parse_uint u64_max t with
  | Some n => COk (mk_decoded (Some (match k_system cfg with Some (m, _) => (m, Some n) | None => (None, Some n) end))
                (k_endpoints cfg) (k_auth cfg))
  | None => CErr (Some (n_src cs)) (EInvalid (n_window cs))
  end)).

(** a [DecodeKind::Simple] task, 815-821 *)
Definition simple (cs : source) (key : bytes) (f : source -> list bytes -> decoded -> cres decoded) (args : rawargs) (cfg : decoded)
    : cres (rawargs * decoded) :=
  match rget key args with
  | Some v => cbind (f cs v cfg) (fun cfg => COk (rdel key args, cfg))
  | None => COk (args, cfg)
  end.
(** [apply_config_changes], 780-834: authentication, mode, window, endpoints; nothing may be left over *)
Definition apply_changes (cs : source) (args : rawargs) : cres decoded :=
  cbind (arg_decode_auth cs args decoded0) (fun '(args, cfg) =>
  cbind (simple cs (n_mode cs) arg_decode_mode args cfg) (fun '(args, cfg) =>
  cbind (simple cs (n_window cs) arg_decode_window args cfg) (fun '(args, cfg) =>
  cbind (arg_decode_endpoints cs args cfg) (fun '(args, cfg) =>
  match args with [] => COk cfg | _ => CErr (Some (n_src cs)) EUnknownArgs end)))).

(** [Configuration::default_dev_mode], 98-110 and fractal/mgr.rs:56 *)
Definition default_config (auth : authdrv * bytes) : config :=
  mk_config (EpInsecure (mk_tcp (bstr "127.0.0.1") 2003)) Dev 300 (fst auth) (snd auth).

(** [validate_configuration], 901-968. The endpoint is the default one when the secure endpoint is
    looked at and no insecure one was given. *)
Definition validate (sc : csrc) (d : decoded) : cres config :=
  match k_auth d with
  | None => CErr (Some sc) ENoRoot
  | Some auth =>
      let c := default_config auth in
      let mode := match k_system d with Some (Some m, _) => m | _ => c_mode c end in
      let window := match k_system d with Some (_, Some w) => w | _ => c_window c end in
      let ep := match k_endpoints d with
                | None | Some (None, None) => c_ep c
                | Some (None, Some t) => EpInsecure t
                | Some (Some s, Some t) => EpMulti t s
                | Some (Some s, None) => EpSecure s
                end in
      if window =? 0 then CErr (Some sc) EWindow else
      if len (c_root c) <? 16 then CErr (Some sc) EShortPassword else
      COk (mk_config ep mode window (c_auth c) (c_root c))
  end.

(** [ConfigReturn], 976-981; the two help messages apart *)
Inductive creturn := RHelp | RVersion | RConfig (c : config).

(** [apply_and_validate], 994-999 *)
Definition apply_and_validate (cs : source) (args : rawargs) : cres creturn :=
  cbind (apply_changes cs args) (fun d => cbind (validate (n_src cs) d) (fun c => COk (RConfig c))).

(** ** Command line *)

(** [CLIConfigParseReturn], 646-655 *)
Inductive cliret := ClDefault | ClHelp | ClVersion | ClArgs (m : rawargs).
(** the merge of values of the same option, 717-725 *)
Definition push (k v : bytes) (m : rawargs) : rawargs :=
  match rget k m with Some l => aput beqb k (l ++ [v]) m | None => aput beqb k [v] m end.
(** the loop of [parse_cli_args], 675-731 *)
Fixpoint cli_loop (l : list bytes) (m : rawargs) : cres cliret :=
  match l with
  | [] => COk (match m with [] => ClDefault | _ => ClArgs m end)
  | a :: l' =>
      if beqb a (bstr "--help") || beqb a (bstr "-h") then COk ClHelp else
      if beqb a (bstr "--version") || beqb a (bstr "-v") then COk ClVersion else
      if negb (starts_with (bstr "--") a) then CErr (Some SCli) (EUnexpected a) else
      match split_on x3d a with
      | [k; v] => if 5 <=? len a then cli_loop l' (push k v m) else CErr (Some SCli) (EBadArg a)
      | [_] =>
          match l' with
          | [] => CErr (Some SCli) (EMissingValue a)
          | v :: l'' => cli_loop l'' (push a v m)
          end
      | _ => CErr (Some SCli) (EBadArg a)
      end
  end.
(** [parse_cli_args], 670-732: the first argument is the program *)
Definition parse_cli (l : list bytes) : cres cliret := cli_loop (tl l) [].

(** ** Environment *)

(** what [std::env::var] answers, 752-765 *)
Inductive envvar := NotPresent | NotUnicode | Var (v : bytes).
(** the keys of [parse_env_args] in its order, 740-749 *)
Definition env_keys : list bytes :=
  [n_driver src_env; n_root src_env; n_ep src_env; n_mode src_env; n_window src_env; n_cert src_env; n_key src_env; n_pkp src_env].
(** its loop, 751-767 *)
Fixpoint env_loop (env : bytes -> envvar) (keys : list bytes) (m : rawargs) : cres rawargs :=
  match keys with
  | [] => COk m
  | k :: keys' =>
      match env k with
      | NotPresent => env_loop env keys' m
      | NotUnicode => CErr (Some SEnv) (EEnvValue k)
      | Var v => env_loop env keys' (aput beqb k (split_on x2c v) m)
      end
  end.
(** [parse_env_args], 739-773 *)
Definition parse_env (env : bytes -> envvar) : cres (option rawargs) :=
  cbind (env_loop env env_keys []) (fun m => COk (match m with [] => None | _ => Some m end)).

(** ** All together *)

Variable yaml : bytes -> option decoded.

(** [check_config_file], 1148-1189 *)
Definition check_file (cli : rawargs) (env : option rawargs) (cfg_file : list bytes) : cres creturn :=
  match cli, env with
  | [_], None =>
      cbind (argck_dup src_cli cfg_file arg_config) (fun _ => cbind (first cfg_file) (fun path =>
      cbind (read_file path) (fun text =>
      match yaml text with
      | None => CErr (Some SFile) EYaml
      | Some d =>
          cbind (match k_endpoints d with
                 | Some (Some s, t) =>
                     cbind (read_file (s_cert s)) (fun c => cbind (read_file (s_key s)) (fun k => cbind (read_file (s_pass s)) (fun p =>
                     COk (mk_decoded (k_system d) (Some (Some (mk_tls (s_tcp s) c k p), t)) (k_auth d)))))
                 | _ => COk d
                 end) (fun d => cbind (validate SFile d) (fun c => COk (RConfig c)))
      end)))
  | _, _ => CErr (Some SCli) EConflict
  end.

(** [check_configuration], 1090-1145. [std::env::args] panics when an argument is not UTF-8 (1081). *)
Variable utf8 : bytes -> bool.
(** [check_configuration], config.rs:1090-1145, as above *)
Definition check (argv : list bytes) (env : bytes -> envvar) : cres creturn :=
  cbind (parse_env env) (fun ea =>
  if negb (forallb utf8 argv) then CPanic else
  cbind (parse_cli argv) (fun cl =>
  match cl with
  | ClHelp => COk RHelp
  | ClVersion => COk RVersion
  | ClDefault => match ea with Some m => apply_and_validate src_env m | None => CErr None ENoConfig end
  | ClArgs m =>
      match rget arg_config m with
      | Some f => check_file m ea f
      | None => match ea with Some _ => CErr (Some SCli) EConflict | None => apply_and_validate src_cli m end
      end
  end)).
End Files.
