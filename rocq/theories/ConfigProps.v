(** C75-C79: the start-up configuration. *)
From Coq Require Import Strings.String.
From Coq Require Import List Arith NArith Lia Bool.
From Verif Require Import Bytes AMap Utf8 ConfigModel ConfigSpec ConfigProofs.
Import ListNotations.
Local Open Scope string_scope.
Local Open Scope list_scope.
Local Open Scope N_scope.

(** no variable of the server is set *)
Definition no_env : bytes -> envvar := fun _ => NotPresent.
Lemma no_env_empty : env_empty no_env. Proof. intros o. reflexivity. Qed.
Lemma empty_has env : env_empty env -> env_has env (fun _ => []).
Proof. intros E o. rewrite (E o). reflexivity. Qed.

(** ** C75: what is accepted, what asks for help, what ends the process *)

(** A configuration comes out exactly when one of the three sources alone describes it; everything else is
    refused. *)
Theorem C75_accepted_exactly : forall files yaml utf8 argv env c,
  check files yaml utf8 argv env = COk (RConfig c) <-> forallb utf8 argv = true /\ configured files yaml argv env c.
Proof. exact check_iff. Qed.
Print Assumptions C75_accepted_exactly.

(** The description leaves nothing open. *)
Theorem C75_one_meaning : forall files yaml argv env c c',
  configured files yaml argv env c -> configured files yaml argv env c' -> c = c'.
Proof.
  intros files yaml argv env c c' H H'. pose proof (fun c => check_iff files yaml (fun _ => true) argv env c) as I.
  assert (T : forallb (fun _ : bytes => true) argv = true) by (apply forallb_forall; reflexivity).
  pose proof (proj2 (I c) (conj T H)) as A. pose proof (proj2 (I c') (conj T H')) as B. congruence.
Qed.
Print Assumptions C75_one_meaning.

(** Settings on the command line (a file among them) and in the environment are never mixed. *)
Theorem C75_no_mixing : forall files yaml utf8 argv env c o,
  tl argv <> [] -> env (env_name o) <> NotPresent -> check files yaml utf8 argv env <> COk (RConfig c).
Proof.
  intros files yaml utf8 argv env c o NT E H. apply check_iff in H as [_ [ps N _ _ _|vals T _ _|f t d N _ _ _ _]]; [|congruence|]; apply E, N.
Qed.
Print Assumptions C75_no_mixing.

(** [-h], [--help], [-v] and [--version] answer wherever an option may stand, whatever follows; the
    environment is looked at before. *)
Theorem C75_help_version : forall files yaml utf8 argv env,
  (check files yaml utf8 argv env = COk RHelp <->
   (forall o, env (env_name o) <> NotUnicode) /\ forallb utf8 argv = true /\
   exists pre ps h rest, tl argv = pre ++ h :: rest /\ cmdline pre ps /\ (h = bstr "--help" \/ h = bstr "-h")) /\
  (check files yaml utf8 argv env = COk RVersion <->
   (forall o, env (env_name o) <> NotUnicode) /\ forallb utf8 argv = true /\
   exists pre ps h rest, tl argv = pre ++ h :: rest /\ cmdline pre ps /\ (h = bstr "--version" \/ h = bstr "-v")).
Proof.
  intros. split; [apply (flag_iff files yaml utf8 argv env RHelp (or_introl eq_refl))|apply (flag_iff files yaml utf8 argv env RVersion (or_intror eq_refl))].
Qed.
Print Assumptions C75_help_version.

(** The process only dies of an argument that is not text. *)
Theorem C75_panics_exactly : forall files yaml utf8 argv env,
  check files yaml utf8 argv env = CPanic <-> (forall o, env (env_name o) <> NotUnicode) /\ forallb utf8 argv = false.
Proof. exact panic_iff. Qed.
Print Assumptions C75_panics_exactly.

(** a world with three files and one configuration file *)
Definition cx_files : bytes -> option bytes := fun p =>
  if beqb p (bstr "c.pem") then Some (bstr "CERT") else if beqb p (bstr "k.pem") then Some (bstr "KEY") else
  if beqb p (bstr "pass") then Some (bstr "PASS") else if beqb p (bstr "cfg.yaml") then Some (bstr "yaml") else None.
Definition cx_yaml : bytes -> option decoded := fun t =>
  if beqb t (bstr "yaml") then Some (mk_decoded (Some (Some Prod, None))
    (Some (Some (mk_tls (mk_tcp (bstr "::1") 2004) (bstr "c.pem") (bstr "k.pem") (bstr "pass")), None)) (Some (Pwd, bstr "a,password,of,20..")))
  else None.
Definition cx_check := check cx_files cx_yaml utf8_ok.
Definition cx_pw : bytes := bstr "password12345678".
Definition cx_args : list bytes := map bstr ["skyd"; "--auth-root-password"; "password12345678"; "--endpoint=tls@0.0.0.0:2004"; "--mode"; "prod";
  "--endpoint"; "tcp@localhost:+2003"; "--tlscert"; "c.pem"; "--tlskey=k.pem"; "--tls-passphrase"; "pass"; "--service-window=60"].
Definition cx_cfg : config := mk_config (EpMulti (mk_tcp (bstr "localhost") 2003) (mk_tls (mk_tcp (bstr "0.0.0.0") 2004) (bstr "CERT") (bstr "KEY") (bstr "PASS")))
  Prod 60 Pwd cx_pw.
Example C75_example :
  cx_check cx_args no_env = COk (RConfig cx_cfg) /\
  cx_check (map bstr ["skyd"; "--config"; "cfg.yaml"]) no_env =
    COk (RConfig (mk_config (EpSecure (mk_tls (mk_tcp (bstr "::1") 2004) (bstr "CERT") (bstr "KEY") (bstr "PASS"))) Prod 300 Pwd (bstr "a,password,of,20.."))) /\
  cx_check [bstr "skyd"] no_env = CErr None ENoConfig /\
  cx_check (map bstr ["skyd"; "--mode"; "--help"; "-v"; "?"]) no_env = COk RVersion /\
  cx_check [bstr "skyd"; [xff]] no_env = CPanic /\
  cx_check (map bstr ["skyd"; "--config"; "cfg.yaml"; "--mode"; "dev"]) no_env = CErr (Some SCli) EConflict.
Proof. repeat (split; [vm_compute; reflexivity|]). vm_compute. reflexivity. Qed.

(** ** C76: command line and environment *)

(** the same settings, on the command line or in the environment, mean the same configuration *)
Theorem C76_sources_agree_partial : forall files yaml utf8 vals prog args ps env0 env c,
  cmdline args ps -> Forall (fun p => exists o, fst p = cli_name o) ps -> (forall o, values (cli_name o) ps = vals o) ->
  env_empty env0 -> env_has env vals -> forallb utf8 (prog :: args) = true ->
  (check files yaml utf8 (prog :: args) env0 = COk (RConfig c) <-> check files yaml utf8 [prog] env = COk (RConfig c)).
Proof.
  intros files yaml utf8 vals prog args ps env0 env c C K V E0 EV U.
  assert (U1 : forallb utf8 [prog] = true) by (cbn [forallb] in *; apply andb_true_iff in U as [-> _]; reflexivity).
  rewrite !check_iff. split; intros [_ H]; (split; [assumption|]).
  - destruct H as [ps' _ C' _ S|vals' T H S|f t d _ C' _ _ _]; cbn [tl] in *.
    + eapply (by_env _ _ _ _ _ vals); [reflexivity|exact EV|]. eapply settled_ext; [|exact S]. intros o. rewrite <- (V o), <- !vals_pushes, (cmdline_fun _ _ C _ C'). reflexivity.
    + exfalso. destruct S as [(p & R & _) _ _ _ _]. specialize (H ORoot). rewrite (E0 ORoot) in H. congruence.
    + exfalso. pose proof (cmdline_fun _ _ C _ C') as F. rewrite <- known_pairs in K. rewrite F in K.
      destruct (K arg_config [f] eq_refl) as [o Q]. rewrite cli_name_name in Q. exact (config_not_name o Q).
  - destruct H as [ps' _ C' _ S|vals' T H S|f t d _ C' _ _ _]; cbn [tl] in *.
    + exfalso. inversion C'; subst. destruct S as [(p & R & _) _ _ _ _]. discriminate R.
    + eapply (by_cli _ _ _ _ _ ps); [exact E0|exact C|exact K|]. eapply settled_ext; [|exact S]. intros o. rewrite (V o).
      specialize (EV o). specialize (H o). destruct (env (env_name o)); [congruence|contradiction|]. destruct EV as (N1 & F1 & J1), H as (N2 & F2 & J2).
      rewrite join_joinc in J1, J2. rewrite <- (proj2 (split_iff x2c v (vals o)) (conj N1 (conj F1 J1))). symmetry. apply split_iff. auto.
    + inversion C'.
Qed.
Print Assumptions C76_sources_agree_partial.

(** every setting can be written on the command line, and in the environment when no value has a comma *)
Definition pairs_of (vals : opt -> list bytes) : list (bytes * bytes) := flat_map (fun o => map (fun v => (cli_name o, v)) (vals o)) all_opts.
Definition args_of (ps : list (bytes * bytes)) : list bytes := flat_map (fun p => [fst p; snd p]) ps.
Lemma cli_name_inj o o' : cli_name o = cli_name o' -> o = o'. Proof. destruct o, o'; intros H; vm_compute in H; first [reflexivity|discriminate H]. Qed.
Lemma cli_name_free o : free x3d (cli_name o). Proof. destruct o; intros H; vm_compute in H; repeat (destruct H as [H|H]; [discriminate H|]); exact H. Qed.
Lemma cli_name_dash o : exists r, cli_name o = bstr "--" ++ r.
Proof. destruct o; eexists; cbn; reflexivity. Qed.
Lemma cmdline_args ps : Forall (fun p => exists o, fst p = cli_name o) ps -> cmdline (args_of ps) ps.
Proof.
  induction 1 as [|[k v] ps [o E] F IH]; [constructor|]. cbn [fst] in E. subst k. cbn [args_of flat_map fst snd app]. constructor; auto.
  - apply cli_name_free.
  - apply cli_name_dash.
  - destruct o; discriminate.
  - destruct o; discriminate.
Qed.
Lemma values_app k a b : values k (a ++ b) = values k a ++ values k b.
Proof. induction a as [|[k' v] a IH]; [reflexivity|]. cbn [app]. rewrite !values_cons, IH. destruct (beqb k k'); reflexivity. Qed.
Lemma values_map o o' l : values (cli_name o) (map (fun v => (cli_name o', v)) l) = if opt_dec o o' then l else [].
Proof.
  induction l as [|v l IH]; [destruct (opt_dec o o'); reflexivity|]. cbn [map]. rewrite values_cons, IH. destruct (opt_dec o o') as [->|N].
  - rewrite beqb_refl. reflexivity.
  - rewrite (proj2 (beqb_neq _ _)); [reflexivity|]. intros Q. apply N, cli_name_inj, Q.
Qed.
Lemma values_pairs vals o : values (cli_name o) (pairs_of vals) = vals o.
Proof. unfold pairs_of, all_opts. cbn [flat_map]. rewrite !values_app, !values_map. destruct o; cbn; rewrite ?app_nil_r; reflexivity. Qed.
Lemma pairs_known vals : Forall (fun p => exists o, fst p = cli_name o) (pairs_of vals).
Proof. apply Forall_forall. intros p I. apply in_flat_map in I as (o & _ & I). apply in_map_iff in I as (v & <- & _). exists o. reflexivity. Qed.

Theorem C76_every_setting_on_command_line : forall vals, exists args ps,
  cmdline args ps /\ Forall (fun p => exists o, fst p = cli_name o) ps /\ forall o, values (cli_name o) ps = vals o.
Proof.
  intros vals. exists (args_of (pairs_of vals)), (pairs_of vals). split; [apply cmdline_args, pairs_known|]. split; [apply pairs_known|apply values_pairs].
Qed.
Print Assumptions C76_every_setting_on_command_line.

Definition env_of (vals : opt -> list bytes) (k : bytes) : envvar :=
  match find (fun o => beqb k (env_name o)) all_opts with
  | Some o => match vals o with [] => NotPresent | l => Var (join l) end
  | None => NotPresent
  end.
Theorem C76_comma_free_in_environment : forall vals, (forall o, Forall (free x2c) (vals o)) -> exists env, env_has env vals.
Proof.
  intros vals F. exists (env_of vals). intros o. unfold env_of.
  replace (find (fun o' => beqb (env_name o) (env_name o')) all_opts) with (Some o) by (destruct o; vm_compute; reflexivity).
  destruct (vals o) as [|x l] eqn:E; [reflexivity|]. split; [discriminate|]. split; [rewrite <- E; apply F|reflexivity].
Qed.
Print Assumptions C76_comma_free_in_environment.

(** no environment sets a root password, or a host, with a comma in it *)
Definition hosts (e : endpoint) : list bytes :=
  match e with EpInsecure t => [t_host t] | EpSecure s => [t_host (s_tcp s)] | EpMulti t s => [t_host t; t_host (s_tcp s)] end.
Lemma settled_hosts files vals c h : settled files vals c -> In h (hosts (c_ep c)) ->
  free x40 h /\ free x3a h /\ (h = bstr "127.0.0.1" \/ exists e p q, In e (vals OEndpoint) /\ e = p ++ h ++ q).
Proof.
  assert (A : forall pr e h p, ep_text pr e h p -> free x40 h /\ free x3a h /\ exists a b, e = a ++ h ++ b).
  { intros pr e h0 p (t & -> & F1 & F2 & _). split; [exact F1|]. split; [exact F2|]. eexists (match pr with PTcp => _ | PTls => _ end ++ bstr "@"), _. destruct pr; rewrite <- app_assoc; reflexivity. }
  intros [_ _ _ _ EP] I. destruct EP as [NT|e h1 p1 T NT|e h1 p1 s T TL|e1 h1 p1 e2 h2 p2 s T1 T2 TL|e1 h1 p1 e2 h2 p2 s T1 T2 TL]; cbn [hosts In t_host] in I.
  - destruct I as [<-|[]]. split; [|split; [|left; reflexivity]]; intros Q; vm_compute in Q; repeat (destruct Q as [Q|Q]; [discriminate Q|]); exact Q.
  - destruct I as [<-|[]]. apply A in T as (F1 & F2 & a & b & E). split; [exact F1|]. split; [exact F2|]. right. exists e, a, b. split; [left; reflexivity|exact E].
  - destruct TL as [TL _]. rewrite TL in I. cbn [t_host] in I. destruct I as [<-|[]]. apply A in T as (F1 & F2 & a & b & E). split; [exact F1|]. split; [exact F2|]. right. exists e, a, b. split; [left; reflexivity|exact E].
  - destruct TL as [TL _]. rewrite TL in I. cbn [t_host] in I. apply A in T1 as (F1 & F2 & a & b & E). apply A in T2 as (G1 & G2 & a' & b' & E').
    destruct I as [<-|[<-|[]]]; (split; [assumption|]); (split; [assumption|]); right; [exists e1, a, b|exists e2, a', b']; split; auto; [left|right; left]; reflexivity.
  - destruct TL as [TL _]. rewrite TL in I. cbn [t_host] in I. apply A in T1 as (F1 & F2 & a & b & E). apply A in T2 as (G1 & G2 & a' & b' & E').
    destruct I as [<-|[<-|[]]]; (split; [assumption|]); (split; [assumption|]); right; [exists e1, a, b|exists e2, a', b']; split; auto; [right; left|left]; reflexivity.
Qed.
Theorem C76_environment_has_no_commas : forall files yaml utf8 prog env c,
  check files yaml utf8 [prog] env = COk (RConfig c) -> free x2c (c_root c) /\ Forall (free x2c) (hosts (c_ep c)).
Proof.
  intros files yaml utf8 prog env c H. apply check_iff in H as [_ [ps _ C' _ S|vals _ H S|f t d _ C' _ _ _]]; cbn [tl] in *.
  - inversion C'; subst. destruct S as [(p & R & _) _ _ _ _]. discriminate R.
  - assert (F : forall o, Forall (free x2c) (vals o)).
    { intros o. specialize (H o). destruct (env (env_name o)); [rewrite H; constructor|contradiction|]. apply H. }
    split.
    + destruct S as [(p & R & _ & ->) _ _ _ _]. specialize (F ORoot). rewrite R in F. inversion F; assumption.
    + apply Forall_forall. intros h I. destruct (settled_hosts _ _ _ _ S I) as (_ & _ & [->|(e & a & b & IE & ->)]).
      * intros Q; vm_compute in Q; repeat (destruct Q as [Q|Q]; [discriminate Q|]); exact Q.
      * specialize (F OEndpoint). rewrite Forall_forall in F. specialize (F _ IE). intros Q. apply F. apply in_or_app. right. apply in_or_app. left. exact Q.
  - inversion C'.
Qed.
Print Assumptions C76_environment_has_no_commas.

(** neither the command line nor the environment can name a host with a colon in it (an IPv6 address);
    only a configuration file can *)
Theorem C76_hosts_have_no_colon : forall files yaml utf8 argv env c,
  check files yaml utf8 argv env = COk (RConfig c) -> (forall f, ~ cmdline (tl argv) [(bstr "--config", f)]) ->
  Forall (fun h => free x3a h /\ free x40 h) (hosts (c_ep c)).
Proof.
  intros files yaml utf8 argv env c H NF. apply Forall_forall. intros h I.
  apply check_iff in H as [_ [ps _ C' _ S|vals _ H S|f t d _ C' _ _ _]]; [| |destruct (NF _ C')];
    destruct (settled_hosts _ _ _ _ S I) as (A & B & _); auto.
Qed.
Print Assumptions C76_hosts_have_no_colon.

(** the password of the command line below can be given by no environment *)
Definition cx_comma : config := mk_config (EpInsecure (mk_tcp (bstr "127.0.0.1") 2003)) Dev 300 Pwd (bstr "one,two,three,four").
Theorem C76_interchangeable_refuted :
  exists c, (exists argv, cx_check argv no_env = COk (RConfig c)) /\ forall prog env, cx_check [prog] env <> COk (RConfig c).
Proof.
  exists cx_comma. split; [exists (map bstr ["skyd"; "--auth-root-password"; "one,two,three,four"]); vm_compute; reflexivity|].
  intros prog env H. apply C76_environment_has_no_commas in H as [F _]. apply F. vm_compute. right. right. right. left. reflexivity.
Qed.
Print Assumptions C76_interchangeable_refuted.

(** the settings of C75_example as variables *)
Definition cx_vals (o : opt) : list bytes :=
  match o with
  | ORoot => [cx_pw] | OEndpoint => map bstr ["tls@0.0.0.0:2004"; "tcp@localhost:+2003"] | OMode => [bstr "prod"] | OCert => [bstr "c.pem"]
  | OKey => [bstr "k.pem"] | OPass => [bstr "pass"] | OWindow => [bstr "60"] | OPlugin => []
  end.
Example C76_example : cx_check [bstr "skyd"] (env_of cx_vals) = COk (RConfig cx_cfg) /\
  env_of cx_vals (bstr "SKYDB_ENDPOINTS") = Var (bstr "tls@0.0.0.0:2004,tcp@localhost:+2003") /\
  cx_check (bstr "skyd" :: args_of (pairs_of cx_vals)) no_env = COk (RConfig cx_cfg) /\
  cx_check [bstr "skyd"] (env_of (fun o => match o with ORoot => [bstr "one,two,three,four"] | _ => [] end)) = CErr (Some SEnv) (ETooMany (bstr "SKYDB_AUTH_PLUGIN")).
Proof. repeat (split; [vm_compute; reflexivity|]). vm_compute. reflexivity. Qed.

(** ** C77: the documented options *)

Lemma cmdline_det l ps : cmdline l ps -> forall ps', cmdline l ps' -> ps = ps'.
Proof.
  induction 1 as [|k v l ps F1 F2 D L5 C IH|k v l ps F1 D N1 N2 C IH]; intros ps' C'.
  - inversion C'. reflexivity.
  - remember ((k ++ bstr "=" ++ v) :: l) as l0 eqn:E. destruct C' as [|k' v' l' ps' F1' F2' D' L5' C'|k' v' l' ps' F1' D' N1' N2' C']; [discriminate E| |].
    + injection E as E1 E2. subst l'. assert (Q : split_on x3d (k ++ bstr "=" ++ v) = [k; v]) by (apply split_two; auto).
      assert (Q' : split_on x3d (k' ++ bstr "=" ++ v') = [k'; v']) by (apply split_two; auto). change (bstr "=" ++ v') with (x3d :: v') in *. change (bstr "=" ++ v) with (x3d :: v) in *.
      rewrite E1, Q in Q'. injection Q' as -> ->. f_equal. apply IH, C'.
    + injection E as E1 E2. exfalso. apply F1'. rewrite E1. apply has_eq.
  - remember (k :: v :: l) as l0 eqn:E. destruct C' as [|k' v' l' ps' F1' F2' D' L5' C'|k' v' l' ps' F1' D' N1' N2' C']; [discriminate E| |].
    + injection E as E1 E2. exfalso. apply F1. rewrite <- E1. apply (has_eq k' v').
    + injection E as -> -> ->. f_equal. apply IH, C'.
Qed.
(** [--auth <plugin_name>] of the help text is never accepted *)
Theorem C77_auth_option_refused : forall files yaml utf8 argv env c ps v,
  cmdline (tl argv) ps -> In (bstr "--auth", v) ps -> check files yaml utf8 argv env <> COk (RConfig c).
Proof.
  intros files yaml utf8 argv env c ps v C I H.
  assert (R : rget (bstr "--auth") (pushes ps []) <> None).
  { rewrite rget_pushes0. destruct (values (bstr "--auth") ps) eqn:V; [|discriminate]. destruct (proj2 (values_in _ ps) (ex_intro _ v I) V). }
  apply check_iff in H as [_ [ps' _ C' K _|vals T _ _|f t d _ C' _ _ _]].
  - rewrite (cmdline_fun _ _ C _ C') in R. rewrite <- known_pairs in K. destruct (rget (bstr "--auth") (pushes ps' [])) as [l|] eqn:G; [|congruence].
    destruct (K _ _ G) as [o Q]. destruct o; discriminate Q.
  - rewrite T in C. inversion C; subst. destruct I.
  - rewrite (cmdline_fun _ _ C _ C') in R. apply R. reflexivity.
Qed.
Print Assumptions C77_auth_option_refused.

(** TLS takes a third option that the help text does not have *)
Theorem C77_tls_needs_passphrase : forall files yaml utf8 argv env c ps,
  cmdline (tl argv) ps -> (forall f, ps <> [(bstr "--config", f)]) -> ps <> [] -> check files yaml utf8 argv env = COk (RConfig c) ->
  (exists t, c_ep c = EpInsecure t) \/ exists p, In (bstr "--tls-passphrase", p) ps.
Proof.
  intros files yaml utf8 argv env c ps C NF NE H. apply check_iff in H as [_ [ps' _ C' K S|vals T _ _|f t d _ C' _ _ _]].
  - assert (V : forall o, values (cli_name o) ps' = values (cli_name o) ps) by (intros o; rewrite <- !vals_pushes, (cmdline_fun _ _ C _ C'); reflexivity).
    apply (settled_ext _ _ _ _ V) in S. destruct S as [_ _ _ _ EP].
    assert (P : forall t s, tls_of files (fun o => values (cli_name o) ps) t s -> exists p, In (bstr "--tls-passphrase", p) ps).
    { intros t s (_ & _ & _ & p & E & _). apply values_in. change (bstr "--tls-passphrase") with (cli_name OPass). rewrite E. discriminate. }
    destruct EP; eauto.
  - rewrite T in C. inversion C; subst. congruence.
  - exfalso. assert (L : ps = [(bstr "--config", f)]); [|destruct (NF _ L)].
    exact (cmdline_det _ _ C _ C').
Qed.
Print Assumptions C77_tls_needs_passphrase.

(** the help text: options with the number of values they take, "Notes: to use TLS, you must provide both
    --tlscert and --tlskey" *)
Definition documented : list bytes := map bstr ["--config"; "--tlscert"; "--tlskey"; "--endpoint"; "--service-window"; "--auth"; "--mode"; "--auth-plugin"; "--auth-root-password"].
(** a command line made of documented options with values of the documented form is refused *)
Theorem C77_documented_options_refuted : exists argv ps k,
  cmdline (tl argv) ps /\ Forall (fun p => In (fst p) documented) ps /\ In (bstr "--auth-root-password", cx_pw) ps /\ In (bstr "--auth", bstr "pwd") ps /\
  cx_check argv no_env = CErr (Some SCli) k.
Proof.
  exists (map bstr ["skyd"; "--auth-root-password"; "password12345678"; "--auth"; "pwd"]), [(bstr "--auth-root-password", cx_pw); (bstr "--auth", bstr "pwd")], EUnknownArgs.
  split; [apply (cm_sp (bstr "--auth-root-password") cx_pw); [|eexists; cbn; reflexivity|discriminate|discriminate|apply (cm_sp (bstr "--auth") (bstr "pwd")); [|eexists; cbn; reflexivity|discriminate|discriminate|constructor]];
    intros H; vm_compute in H; repeat (destruct H as [H|H]; [discriminate H|]); exact H|].
  split; [repeat constructor; cbn; tauto|]. split; [left; reflexivity|]. split; [right; left; reflexivity|]. vm_compute. reflexivity.
Qed.
Print Assumptions C77_documented_options_refuted.
Theorem C77_documented_tls_refuted : exists argv k,
  argv = map bstr ["skyd"; "--auth-root-password"; "password12345678"; "--endpoint"; "tls@0.0.0.0:2004"; "--tlscert"; "c.pem"; "--tlskey"; "k.pem"] /\
  cx_check argv no_env = CErr (Some SCli) k.
Proof. eexists _, ENeedTls. split; [reflexivity|]. vm_compute. reflexivity. Qed.
Print Assumptions C77_documented_tls_refuted.

(** every configuration within the documented limits can be asked for, by options alone *)
Definition good_host (h : bytes) : Prop := free x40 h /\ free x3a h.
Definition in_limits (files : bytes -> option bytes) (c : config) : Prop :=
  16 <= len (c_root c) /\ c_window c <> 0 /\ c_window c < two64 /\
  (forall t, match c_ep c with EpInsecure t' => t = t' | EpMulti t' s => t = t' \/ t = s_tcp s | EpSecure s => t = s_tcp s end -> good_host (t_host t) /\ t_port t < 65536) /\
  match c_ep c with EpInsecure _ => True | EpSecure s | EpMulti _ s => exists a b d, files a = Some (s_cert s) /\ files b = Some (s_key s) /\ files d = Some (s_pass s) end.
Lemma dec_ex n : exists t, decimal t n.
Proof.
  induction n as [n IH] using (well_founded_induction N.lt_wf_0). destruct (N.lt_ge_cases n 10) as [L|L].
  - exists [n2b (48 + n)]. apply dec_one; [exact L|]. rewrite b2n_n2b. apply N.mod_small. lia.
  - assert (LT : n / 10 < n) by (apply N.div_lt; lia). destruct (IH (n / 10) LT) as [t T]. exists (t ++ [n2b (48 + n mod 10)]).
    pose proof (N.mod_lt n 10 ltac:(lia)). rewrite (N.div_mod n 10) at 2 by lia. apply dec_more; [exact T|lia|].
    rewrite b2n_n2b. apply N.mod_small. lia.
Qed.
Lemma ep_ex pr h p : good_host h -> p < 65536 -> exists e, ep_text pr e h p.
Proof.
  intros [F1 F2] L. destruct (dec_ex p) as [t T]. eexists. exists t. split; [reflexivity|]. split; [exact F1|]. split; [exact F2|]. split; [lia|]. left. exact T.
Qed.
Theorem C77_expressible : forall files yaml utf8 c prog, in_limits files c -> (forall b, utf8 b = true) ->
  exists args, check files yaml utf8 (prog :: args) no_env = COk (RConfig c).
Proof.
  intros files yaml utf8 c prog (LR & WZ & WL & HP & FI) U.
  destruct (dec_ex (c_window c)) as [w W].
  assert (EP : exists e ce ke pa, (ce = [] /\ ke = [] /\ pa = [] \/ exists a b d, ce = [a] /\ ke = [b] /\ pa = [d]) /\
    forall vals, vals OEndpoint = e -> vals OCert = ce -> vals OKey = ke -> vals OPass = pa -> eps_of files vals e (c_ep c)).
  { destruct (c_ep c) as [t|s|t s] eqn:E.
    - destruct (HP t eq_refl) as [G L]. destruct (ep_ex PTcp _ _ G L) as [e T]. exists [e], [], [], []. split; [auto|]. intros vals _ V1 V2 V3.
      destruct t as [h p]. apply (ep_tcp files vals e h p T). repeat split; assumption.
    - destruct (HP (s_tcp s) eq_refl) as [G L]. destruct (ep_ex PTls _ _ G L) as [e T]. destruct FI as (a & b & d & A & B & D). exists [e], [a], [b], [d]. split; [eauto 8|].
      intros vals _ V1 V2 V3. apply (ep_tls files vals e _ _ s T). repeat split; [destruct (s_tcp s); reflexivity|eauto|eauto|eauto].
    - destruct (HP t (or_introl eq_refl)) as [G L]. destruct (ep_ex PTcp _ _ G L) as [e T]. destruct (HP (s_tcp s) (or_intror eq_refl)) as [G' L']. destruct (ep_ex PTls _ _ G' L') as [e' T'].
      destruct FI as (a & b & d & A & B & D). exists [e; e'], [a], [b], [d]. split; [eauto 8|].
      intros vals _ V1 V2 V3. destruct t as [h p]. apply (ep_both files vals e h p e' _ _ s T T'). repeat split; [destruct (s_tcp s); reflexivity|eauto|eauto|eauto]. }
  destruct EP as (e & ce & ke & pa & _ & EP).
  set (vals := fun o => match o with OPlugin => [] | ORoot => [c_root c] | OCert => ce | OKey => ke | OPass => pa | OEndpoint => e
                        | OMode => [match c_mode c with Dev => bstr "dev" | Prod => bstr "prod" end] | OWindow => [w] end).
  exists (args_of (pairs_of vals)). apply check_iff. split; [apply forallb_forall; auto|].
  eapply by_cli; [apply no_env_empty|apply cmdline_args, pairs_known|apply pairs_known|].
  eapply settled_ext; [intros o; symmetry; apply values_pairs|]. constructor.
  - exists (c_root c). auto.
  - split; [destruct (c_auth c); reflexivity|left; reflexivity].
  - right. cbn [vals]. destruct (c_mode c); [left|right]; auto.
  - right. exists w. split; [reflexivity|]. split; [|exact WZ]. split; [unfold two64 in WL; lia|left; exact W].
  - apply EP; reflexivity.
Qed.
Print Assumptions C77_expressible.
Example C77_example : in_limits cx_files cx_cfg /\ exists args, check cx_files cx_yaml (fun _ => true) (bstr "skyd" :: args) no_env = COk (RConfig cx_cfg).
Proof.
  assert (L : in_limits cx_files cx_cfg).
  { split; [vm_compute; discriminate|]. split; [discriminate|]. split; [reflexivity|]. split.
    - intros t [-> | ->]; split; try reflexivity; split; intros H; vm_compute in H; repeat (destruct H as [H|H]; [discriminate H|]); exact H.
    - exists (bstr "c.pem"), (bstr "k.pem"), (bstr "pass"). repeat split. }
  split; [exact L|]. apply C77_expressible; [exact L|reflexivity].
Qed.

(** ** C78: the limits are kept *)

(** whatever the source: the root password has 16 bytes, the window is not zero, TLS material was read from
    files that exist *)
Theorem C78_limits_kept : forall files yaml utf8 argv env c, check files yaml utf8 argv env = COk (RConfig c) ->
  16 <= len (c_root c) /\ c_window c <> 0 /\
  (forall s, (c_ep c = EpSecure s \/ exists t, c_ep c = EpMulti t s) ->
     (exists f, files f = Some (s_cert s)) /\ (exists f, files f = Some (s_key s)) /\ (exists f, files f = Some (s_pass s))).
Proof.
  intros files yaml utf8 argv env c H. apply check_iff in H as [_ H].
  assert (ST : forall vals, settled files vals c -> 16 <= len (c_root c) /\ c_window c <> 0 /\
    (forall s, (c_ep c = EpSecure s \/ exists t, c_ep c = EpMulti t s) ->
     (exists f, files f = Some (s_cert s)) /\ (exists f, files f = Some (s_key s)) /\ (exists f, files f = Some (s_pass s)))).
  { intros vals [(p & _ & L & ->) _ _ W EP]. split; [exact L|]. split; [destruct W as [[_ ->]|(t & _ & _ & Z)]; [discriminate|exact Z]|].
    intros s E. assert (T : exists t, tls_of files vals t s) by (destruct EP; destruct E as [E|[t' E]]; inversion E; subst; eauto).
    destruct T as (t & _ & (a & _ & A) & (b & _ & B) & (d & _ & D)). split; [eauto|]. split; eauto. }
  destruct H as [ps _ _ _ S|vals _ _ S|f t d _ _ _ _ [[_ L] _ [W _] EP]]; [eapply ST, S|eapply ST, S|].
  split; [exact L|]. split; [exact W|]. intros s E. inversion EP as [K Q|K Q|t0 K Q|s0 s' T0 A B D K Q|s0 s' t0 T0 A B D K Q]; rewrite <- Q in E; destruct E as [E|[t' E]]; inversion E; subst; (split; [eauto|]; split; eauto).
Qed.
Print Assumptions C78_limits_kept.

(** a TLS endpoint asked for is served as TLS, at the address asked for; TLS options without one are refused *)
Theorem C78_tls_not_dropped : forall files yaml utf8 argv env c ps e h p,
  cmdline (tl argv) ps -> In (bstr "--endpoint", e) ps -> ep_text PTls e h p -> check files yaml utf8 argv env = COk (RConfig c) ->
  exists s, s_tcp s = mk_tcp h p /\ (c_ep c = EpSecure s \/ exists t, c_ep c = EpMulti t s).
Proof.
  intros files yaml utf8 argv env c ps e h p C I T H. apply check_iff in H as [_ [ps' _ C' _ S|vals TA _ _|f t d _ C' _ _ _]].
  - rewrite <- (cmdline_det _ _ C _ C') in S. destruct S as [_ _ _ _ EP].
    assert (IV : In e (values (cli_name OEndpoint) ps)).
    { clear -I. induction ps as [|[k v] ps IH]; [destruct I|]. rewrite values_cons. destruct I as [Q|I].
      - injection Q as -> ->. rewrite beqb_refl. left. reflexivity.
      - destruct (beqb _ k); [right|]; auto. }
    assert (U : forall pr e0 h0 p0, ep_text pr e0 h0 p0 -> e = e0 -> pr = PTls /\ h0 = h /\ p0 = p).
    { intros pr e0 h0 p0 T0 <-. apply (parse_endpoint_iff SCli) in T, T0. rewrite T in T0. injection T0 as <- <- <-. auto. }
    destruct EP as [NT|e1 h1 p1 T1 NT|e1 h1 p1 s T1 TL|e1 h1 p1 e2 h2 p2 s T1 T2 TL|e1 h1 p1 e2 h2 p2 s T1 T2 TL]; cbn [In] in IV.
    + destruct IV.
    + destruct IV as [Q|[]]. apply U in T1 as [Z _]; [discriminate Z|symmetry; exact Q].
    + destruct IV as [Q|[]]. apply U in T1 as (_ & -> & ->); [|symmetry; exact Q]. exists s. split; [apply TL|left; reflexivity].
    + destruct IV as [Q|[Q|[]]]; [apply U in T1 as [Z _]; [discriminate Z|symmetry; exact Q]|]. apply U in T2 as (_ & -> & ->); [|symmetry; exact Q]. exists s. split; [apply TL|right; eauto].
    + destruct IV as [Q|[Q|[]]]; [|apply U in T1 as [Z _]; [discriminate Z|symmetry; exact Q]]. apply U in T2 as (_ & -> & ->); [|symmetry; exact Q]. exists s. split; [apply TL|right; eauto].
  - rewrite TA in C. inversion C; subst. destruct I.
  - rewrite (cmdline_det _ _ C _ C') in I. destruct I as [Q|[]]. discriminate Q.
Qed.
Print Assumptions C78_tls_not_dropped.

(** the message asks for 16 characters; characters are not what is counted *)
Definition chars (s : bytes) : N := N.of_nat (List.length (filter (fun b => negb ((128 <=? b2n b) && (b2n b <? 192))) s)).
Theorem C78_sixteen_characters_refuted : exists argv c,
  cx_check argv no_env = COk (RConfig c) /\ utf8_ok (c_root c) = true /\ chars (c_root c) = 4.
Proof.
  eexists [bstr "skyd"; bstr "--auth-root-password"; [xf0; x9f; x98; x80; xf0; x9f; x98; x80; xf0; x9f; x98; x80; xf0; x9f; x98; x80]], _.
  split; [vm_compute; reflexivity|]. split; vm_compute; reflexivity.
Qed.
Print Assumptions C78_sixteen_characters_refuted.
(** ASCII passwords are counted right *)
Theorem C78_ascii_password_partial : forall files yaml utf8 argv env c, check files yaml utf8 argv env = COk (RConfig c) ->
  Forall (fun b => b2n b < 128) (c_root c) -> 16 <= chars (c_root c).
Proof.
  intros files yaml utf8 argv env c H A. apply C78_limits_kept in H as [L _].
  assert (E : forall s, Forall (fun b => b2n b < 128) s -> chars s = len s).
  { unfold chars, len. induction 1 as [|b s B F IH]; [reflexivity|]. cbn [filter]. destruct (N.leb_spec 128 (b2n b)); [lia|]. cbn [andb negb List.length]. lia. }
  rewrite E by exact A. exact L.
Qed.
Print Assumptions C78_ascii_password_partial.
Example C78_example : cx_check cx_args no_env = COk (RConfig cx_cfg) /\ chars (c_root cx_cfg) = 16 /\ Forall (fun b => b2n b < 128) (c_root cx_cfg) /\
  cx_check (map bstr ["skyd"; "--auth-root-password"; "password1234567"]) no_env = CErr (Some SCli) EShortPassword /\
  cx_check (map bstr ["skyd"; "--auth-root-password"; "password12345678"; "--service-window"; "0"]) no_env = CErr (Some SCli) EWindow.
Proof.
  split; [vm_compute; reflexivity|]. split; [vm_compute; reflexivity|]. split; [|split; vm_compute; reflexivity].
  repeat (constructor; [vm_compute; reflexivity|]). constructor.
Qed.

(** ** C79: complaints are about what is wrong *)

(** Every complaint about options is true of the settings, but for two about the root password that name
    the plugin. *)
Theorem C79_complaints_true_partial : forall files yaml utf8 argv env ps s k,
  env_empty env -> forallb utf8 argv = true -> cmdline (tl argv) ps -> ps <> [] -> values (bstr "--config") ps = [] ->
  check files yaml utf8 argv env = CErr s k ->
  s = Some SCli /\
  (fault cli_name (fun o => values (cli_name o) ps) (exists p, In p ps /\ forall o, fst p <> cli_name o) k \/
   (k = ENeedAuth (bstr "--auth-plugin") /\ values (bstr "--auth-root-password") ps = []) \/
   (k = ETooMany (bstr "--auth-plugin") /\ (2 <= List.length (values (bstr "--auth-root-password") ps))%nat)).
Proof.
  intros files yaml utf8 argv env ps s k E U C NE NC H. unfold check, parse_env in H.
  destruct (env_loop_total env env_keys []) as [m EL]. { intros x I. apply env_keys_names in I as [o ->]. rewrite (E o). discriminate. }
  rewrite EL in H. cbn [cbind] in H. rewrite (proj2 (env_nil _ _ EL) E) in H. rewrite U in H. cbn [negb] in H. unfold parse_cli in H.
  assert (PN : pushes ps [] <> []) by (intros Q; apply pushes_nil in Q; congruence).
  rewrite (proj2 (cli_iff (tl argv) (ClArgs (pushes ps [])))) in H by (exists ps; auto). cbn [cbind] in H.
  rewrite (rget_pushes0 ps arg_config) in H. change arg_config with (bstr "--config") in H. rewrite NC in H.
  apply (apply_err files src_cli cli_names_ok _ _ _ (pushes_filled ps)) in H as [-> F].
  assert (VE : forall o, vals_of src_cli (pushes ps []) o = values (cli_name o) ps) by (intros o; apply vals_pushes).
  split; [destruct k; reflexivity|]. destruct F as [F|[[-> F]|(-> & F & _)]].
  - left. assert (X : ~ known src_cli (pushes ps []) -> exists p, In p ps /\ forall o, fst p <> cli_name o).
    { rewrite known_pairs. intros NK. apply neg_Forall_Exists_neg in NK.
      - apply Exists_exists in NK as (p & I & N). exists p. split; [exact I|]. intros o Q. apply N. eauto.
      - intros p. destruct (in_dec (list_eq_dec Byte.byte_eq_dec) (fst p) (map cli_name all_opts)) as [I|I].
        + left. apply in_map_iff in I as (o & <- & _). eauto.
        + right. intros [o Q]. apply I. rewrite Q. apply in_map. destruct o; unfold all_opts; cbn [In]; tauto. }
    assert (NN : forall o, name src_cli o = cli_name o) by apply cli_name_name.
    destruct k; cbn [fault] in *; try exact F.
    + destruct F as (o & v & K & V & B). exists o, v. rewrite <- NN, <- VE. auto.
    + destruct F as (o & K & V & B). exists o. rewrite <- NN, <- VE. auto.
    + destruct F as (e & I & B). exists e. rewrite <- VE. auto.
    + rewrite <- !VE. exact F.
    + destruct F as (o & K & V & B). exists o. rewrite <- NN, <- VE. auto.
    + rewrite <- VE. exact F.
    + destruct F as [F|[NT F]]; [left; apply X, F|right]. split; [unfold no_tls_options in *; rewrite <- !VE; exact NT|]. rewrite <- VE. exact F.
    + rewrite <- VE. exact F.
    + rewrite <- VE. exact F.
  - right. left. split; [reflexivity|]. change (bstr "--auth-root-password") with (cli_name ORoot). rewrite <- VE. exact F.
  - right. right. split; [reflexivity|]. change (bstr "--auth-root-password") with (cli_name ORoot). rewrite <- VE. exact F.
Qed.
Print Assumptions C79_complaints_true_partial.

(** The same for the environment; the complaint about missing TLS files says it comes from the command line. *)
Theorem C79_environment_complaints_true_partial : forall files yaml utf8 prog env vals s k,
  env_has env vals -> (exists o, vals o <> []) -> utf8 prog = true -> check files yaml utf8 [prog] env = CErr s k ->
  s = Some (match k with ENeedTls => SCli | _ => SEnv end) /\
  (fault env_name vals False k \/
   (k = ENeedAuth (bstr "SKYDB_AUTH_PLUGIN") /\ vals ORoot = []) \/
   (k = ETooMany (bstr "SKYDB_AUTH_PLUGIN") /\ (2 <= List.length (vals ORoot))%nat)).
Proof.
  intros files yaml utf8 prog env vals s k EH [o0 NE] U H. unfold check, parse_env in H.
  destruct (env_loop_total env env_keys []) as [m EL].
  { intros x I. apply env_keys_names in I as [o ->]. specialize (EH o). destruct (env (env_name o)); [discriminate|contradiction|discriminate]. }
  rewrite EL in H. cbn [cbind forallb] in H. rewrite U in H. cbn [negb andb parse_cli tl cli_loop cbind] in H.
  destruct (env_ok _ _ EL) as (_ & _ & KN & FI). pose proof (env_has_vals _ _ _ EL EH) as VE.
  destruct m as [|e m0] eqn:EM.
  { exfalso. apply NE. rewrite <- VE. reflexivity. }
  rewrite <- EM in *. clear EM e m0. apply (apply_err files src_env env_names_ok _ _ _ FI) in H as [-> F].
  split; [destruct k; reflexivity|]. destruct F as [F|[[-> F]|(-> & F & _)]].
  - left. assert (NN : forall o, name src_env o = env_name o) by apply env_name_name.
    destruct k; cbn [fault] in *; try exact F.
    + destruct F as (o & v & K & V & B). exists o, v. rewrite <- NN, <- VE. auto.
    + destruct F as (o & K & V & B). exists o. rewrite <- NN, <- VE. auto.
    + destruct F as (e & I & B). exists e. rewrite <- VE. auto.
    + rewrite <- !VE. exact F.
    + destruct F as (o & K & V & B). exists o. rewrite <- NN, <- VE. auto.
    + rewrite <- VE. exact F.
    + destruct F as [F|[NT F]]; [destruct (F KN)|right]. split; [unfold no_tls_options in *; rewrite <- !VE; exact NT|]. rewrite <- VE. exact F.
    + rewrite <- VE. exact F.
    + rewrite <- VE. exact F.
  - right. left. split; [reflexivity|]. rewrite <- VE. exact F.
  - right. right. split; [reflexivity|]. rewrite <- VE. exact F.
Qed.
Print Assumptions C79_environment_complaints_true_partial.

(** the two exceptions: [--auth-plugin] is blamed although given at most once, or not missing *)
Theorem C79_complaints_true_refuted :
  (exists argv ps, cmdline (tl argv) ps /\ values (bstr "--auth-plugin") ps = [] /\
     cx_check argv no_env = CErr (Some SCli) (ETooMany (bstr "--auth-plugin"))) /\
  (exists argv ps, cmdline (tl argv) ps /\ values (bstr "--auth-plugin") ps = [bstr "pwd"] /\
     cx_check argv no_env = CErr (Some SCli) (ENeedAuth (bstr "--auth-plugin"))) /\
  (exists env, cx_check [bstr "skyd"] env = CErr (Some SCli) ENeedTls).
Proof.
  split; [|split].
  - exists (bstr "skyd" :: args_of [(cli_name ORoot, cx_pw); (cli_name ORoot, cx_pw)]), [(cli_name ORoot, cx_pw); (cli_name ORoot, cx_pw)].
    split; [apply cmdline_args; repeat constructor; exists ORoot; reflexivity|]. split; vm_compute; reflexivity.
  - exists (bstr "skyd" :: args_of [(cli_name OPlugin, bstr "pwd")]), [(cli_name OPlugin, bstr "pwd")].
    split; [apply cmdline_args; repeat constructor; exists OPlugin; reflexivity|]. split; vm_compute; reflexivity.
  - exists (env_of (fun o => match o with ORoot => [cx_pw] | OEndpoint => [bstr "tls@h:1"] | _ => [] end)). vm_compute. reflexivity.
Qed.
Print Assumptions C79_complaints_true_refuted.

Example C79_example :
  cx_check (map bstr ["skyd"; "--auth-root-password"; "password12345678"; "--mode"; "devel"]) no_env = CErr (Some SCli) (EInvalid (bstr "--mode")) /\
  cx_check (map bstr ["skyd"; "--auth-root-password"; "password12345678"; "--endpoint"; "tcp@h:65536"]) no_env = CErr (Some SCli) EEpSyntax /\
  cx_check (map bstr ["skyd"; "--auth-root-password"; "password12345678"; "--endpoint"; "tcp@h:1"; "--endpoint"; "tcp@h:2"]) no_env = CErr (Some SCli) EDupEndpoints /\
  cx_check (map bstr ["skyd"; "--auth-root-password"; "password12345678"; "--tlscert"; "c.pem"]) no_env = CErr (Some SCli) EUnknownArgs /\
  cx_check (map bstr ["skyd"; "--auth-root-password"; "password12345678"; "--mode=dev"; "--mode=prod"]) no_env = CErr (Some SCli) (ETooMany (bstr "--mode")).
Proof. repeat (split; [vm_compute; reflexivity|]). vm_compute. reflexivity. Qed.
