(** What a server says that refuses its configuration: the texts of /repo/server/src/engine/config.rs (line numbers refer to it unless another file is
    named) on the model of ConfigModel.v, and the context of errors of StartMsgModel.v for files that cannot be read. *)
From Coq Require Import Strings.String.
From Coq Require Import List NArith Bool Init.Byte.
From Verif Require Import Bytes AMap ConfigModel StartMsgModel.
Import ListNotations.
Local Open Scope string_scope.
Local Open Scope list_scope.

(** [ConfigSource::as_str], 359-367 *)
Definition csrc_str (s : csrc) : bytes := match s with SCli => bstr "CLI" | SEnv => bstr "ENV" | SFile => bstr "config file" end.
(** [CSConfigFile], 869-880 *)
Definition src_file : source := mk_source (bstr "auth.plugin") (bstr "auth.root_password") (bstr "endpoints.secure.cert")
  (bstr "endpoints.secure.key") (bstr "endpoints.secure.pkey_passphrase") (bstr "endpoints") (bstr "system.mode") (bstr "system.service_window") SFile.
(** the text between two backquotes of a [format!] *)
Definition quoted (t : bytes) : bytes := bstr "`" ++ t ++ bstr "`".

(** The texts where the errors are made: 340-343, 391-403, 437, 499-504, 533-535, 578-580, 686, 703, 710, 759, 828, 912-915, 960, 964, 1138, 1163. [cs] is the
    source at work, [y] the text of the YAML error *)
Definition ckind_str (cs : source) (y : bytes) (k : ckind) : bytes :=
  match k with
  | EConflict => bstr "conflicting settings. please choose either CLI or ENV or configuration file"
  | EInvalid key => bstr "Invalid value for " ++ key
  | ETooMany key => bstr "Too many values for " ++ key
  | EEpSyntax => bstr "invalid endpoint syntax. should be `protocol@hostname:port`"
  | ENeedTls => bstr "must supply values for " ++ quoted (n_cert cs) ++ bstr ", " ++ quoted (n_key cs) ++ bstr " and " ++ quoted (n_pkp cs) ++ bstr " when using TLS"
  | ENeedAuth key => bstr "to enable auth, you must provide values for " ++ key
  | EDupEndpoints => bstr "duplicate endpoints specified in " ++ quoted (n_ep cs)
  | EUnexpected a => bstr "unexpected argument " ++ quoted a
  | EBadArg a => bstr "incorrectly formatted argument " ++ quoted a
  | EMissingValue a => bstr "missing value for option " ++ quoted a
  | EEnvValue key => bstr "invalid value for " ++ quoted key
  | EUnknownArgs => bstr "found unknown arguments"
  | ENoRoot => bstr "root account must be configured with " ++ n_root cs
  | EWindow => bstr "invalid value for service window. must be nonzero"
  | EShortPassword => bstr "the root password must have at least 16 characters"
  | EYaml => bstr "failed to parse YAML config file with error: " ++ quoted y
  | ENoConfig => bstr "no configuration provided"
  end.
(** [Display for ConfigError], 332-346 *)
Definition cerror_str (cs : source) (y : bytes) (s : option csrc) (k : ckind) : bytes :=
  match s with Some s => bstr "config error in " ++ csrc_str s ++ bstr ": " | None => [] end ++ ckind_str cs y k.
(** [From<ConfigError> for Error], fractal/error.rs:319-322, its text 95-107 and that of the kind, error.rs:153 *)
Definition refused_str (cs : source) (y : bytes) (s : option csrc) (k : ckind) : bytes :=
  subsys_str SInit ++ bstr " error: " ++ bstr "config error: " ++ cerror_str cs y s k.

(** the message set at 1049 *)
Definition d_conf : bytes := bstr "loading configuration file from disk".
(** the message set at 471 and 1171 *)
Definition d_tls : bytes := bstr "loading TLS configuration from disk".
(** A file that cannot be read: [?] on an I/O error takes over the context (fractal/error.rs:116-120), in which only the message was set (471, 1049, 1171) *)
Definition unread_str (d t : bytes) : bytes := serror_str (fst (conv (FIo t) (ctx_set (CDmsg d) ctx_null))).

Section Say.
Variable files : bytes -> option bytes.
Variable yaml : bytes -> option decoded.
Variable utf8 : bytes -> bool.
(** the text of the YAML error for a file's contents *)
Variable yerr : bytes -> bytes.
(** the text of the I/O error for a path *)
Variable ioerr : bytes -> bytes.

(** the file given with [--config], 1113-1114 *)
Definition conf_path (argv : list bytes) : option bytes :=
  match parse_cli argv with
  | COk (ClArgs m) => match rget arg_config m with Some (p :: _) => Some p | _ => None end
  | _ => None
  end.
(** the source at work, 1111-1144 *)
Definition at_work (argv : list bytes) : source :=
  match parse_cli argv with
  | COk (ClArgs m) => match rget arg_config m with Some _ => src_file | None => src_cli end
  | _ => src_env
  end.
(** its options, 1111-1144 *)
Definition args_of (argv : list bytes) (env : bytes -> envvar) : rawargs :=
  match parse_cli argv, parse_env env with
  | COk (ClArgs m), _ => m
  | _, COk (Some m) => m
  | _, _ => []
  end.
(** the files in the order in which they are read, with the message set before: 1155, 1172-1174; 472-474 for the options *)
Definition reads (argv : list bytes) (env : bytes -> envvar) : list (bytes * bytes) :=
  match conf_path argv with
  | Some p =>
      (d_conf, p) ::
      match files p with
      | Some t => match yaml t with
                  | Some d => match k_endpoints d with Some (Some s, _) => [(d_tls, s_cert s); (d_tls, s_key s); (d_tls, s_pass s)] | _ => [] end
                  | None => []
                  end
      | None => []
      end
  | None =>
      let cs := at_work argv in
      flat_map (fun k => match rget k (args_of argv env) with Some (p :: _) => [(d_tls, p)] | _ => [] end) [n_key cs; n_cert cs; n_pkp cs]
  end.
(** the first that cannot be read, where the [?] of 472-474, 1050, 1172-1174 leaves *)
Definition failed (argv : list bytes) (env : bytes -> envvar) : option (bytes * bytes) :=
  find (fun x => match files (snd x) with Some _ => false | None => true end) (reads argv env).

(** main.rs:69-77: what is logged; [None]: nothing is refused, or the process panics *)
Definition says (argv : list bytes) (env : bytes -> envvar) : option bytes :=
  match check files yaml utf8 argv env with
  | CErr s k =>
      let y := match conf_path argv with Some p => match files p with Some t => yerr t | None => [] end | None => [] end in
      Some (refused_str (at_work argv) y s k)
  | CIo => match failed argv env with Some (d, p) => Some (unread_str d (ioerr p)) | None => None end
  | COk _ | CPanic => None
  end.
End Say.
