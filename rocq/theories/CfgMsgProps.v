(** C125: what a server says that refuses its configuration. *)
From Coq Require Import Strings.String.
From Coq Require Import List NArith Bool Init.Byte.
From Verif Require Import Bytes AMap Utf8 ConfigModel ConfigSpec ConfigProofs StartMsgModel CfgMsgModel.
Import ListNotations.
Local Open Scope string_scope.
Local Open Scope list_scope.

(** ** Texts determine mistakes *)
Lemma quoted_inj a b : quoted a = quoted b -> a = b.
Proof. unfold quoted. intros H. apply app_inv_head in H. now apply app_inv_tail in H. Qed.
Lemma kind_inj cs y k cs' y' k' : ckind_str cs y k = ckind_str cs' y' k' -> k = k'.
Proof.
  destruct k, k'; intros H; try reflexivity; try (lazy in H; discriminate H); cbn [ckind_str] in H; apply app_inv_head in H; try (apply quoted_inj in H); subst; reflexivity.
Qed.
Lemma src_kind s cs y k : bstr "config error in " ++ csrc_str s ++ bstr ": " <> [] /\ forall r, (bstr "config error in " ++ csrc_str s ++ bstr ": ") ++ r <> ckind_str cs y k.
Proof. split; [intros H; lazy in H; discriminate H|]. intros r H. destruct k; lazy in H; discriminate H. Qed.
Lemma refused_inj cs y s k cs' y' s' k' : refused_str cs y s k = refused_str cs' y' s' k' -> s = s' /\ k = k'.
Proof.
  unfold refused_str. intros H. do 3 apply app_inv_head in H. unfold cerror_str in H.
  destruct s as [s|], s' as [s'|].
  - assert (E : s = s').
    { rewrite <- !app_assoc in H. apply app_inv_head in H. destruct s, s'; try reflexivity; lazy in H; discriminate H. }
    subst s'. apply app_inv_head in H. apply kind_inj in H. subst. now split.
  - exfalso. exact (proj2 (src_kind s cs' y' k') _ H).
  - exfalso. exact (proj2 (src_kind s' cs y k) _ (eq_sym H)).
  - apply kind_inj in H. subst. now split.
Qed.
Lemma unread_str_eq d t : unread_str d t = bstr "runtime error: " ++ d ++ bstr "; io error: " ++ t.
Proof. unfold unread_str, serror_str, conv, ctx_set, ctx_null. cbn [fst se_origin se_dmsg se_kind c_origin c_dmsg fault_str]. rewrite <- !app_assoc. reflexivity. Qed.

(** ** Files that cannot be read *)
Lemma bind_io {A B} (x : cres A) (f : A -> cres B) : cbind x f = CIo -> x = CIo \/ exists a, x = COk a /\ f a = CIo.
Proof. destruct x; cbn; intros H; try discriminate H; eauto. Qed.
Lemma dup_io cs v k : argck_dup cs v k <> CIo. Proof. destruct v as [|a [|b r]]; discriminate. Qed.
Lemma dup_ok cs v k u : argck_dup cs v k = COk u -> exists x, v = [x]. Proof. destruct v as [|a [|b r]]; cbn; intros H; try discriminate H; eauto. Qed.
Lemma first_io v : first v <> CIo. Proof. destruct v; discriminate. Qed.

Section Files.
Variable files : bytes -> option bytes.
Lemma read_io p : read_file files p = CIo -> files p = None. Proof. unfold read_file. destruct (files p); [discriminate|reflexivity]. Qed.
Definition gone (p : bytes) : bool := match files p with Some _ => false | None => true end.
(** the three reads one after the other *)
Lemma reads_io {B} a b c (f : bytes -> bytes -> bytes -> cres B) : (forall x y z, f x y z <> CIo) ->
  cbind (read_file files a) (fun x => cbind (read_file files b) (fun y => cbind (read_file files c) (fun z => f x y z))) = CIo ->
  exists p, find gone [a; b; c] = Some p.
Proof.
  intros NF. unfold read_file. cbn [find]. unfold gone. destruct (files a); cbn [cbind]; [|intros _; eauto]. destruct (files b); cbn [cbind]; [|intros _; eauto].
  destruct (files c); cbn [cbind]; [|intros _; eauto]. intros H. exfalso. exact (NF _ _ _ H).
Qed.

Definition named (cs : source) (m : rawargs) : Prop :=
  exists c k p, rget (n_cert cs) m = Some [c] /\ rget (n_key cs) m = Some [k] /\ rget (n_pkp cs) m = Some [p] /\ exists q, find gone [k; c; p] = Some q.

Lemma tls_io cs m h p : n_key cs <> n_cert cs -> n_pkp cs <> n_cert cs -> n_pkp cs <> n_key cs -> arg_decode_tls files cs m h p = CIo -> named cs m.
Proof.
  intros N1 N2 N3 H. unfold arg_decode_tls in H. rewrite !rget_rdel in H.
  destruct (beqb (n_key cs) (n_cert cs)) eqn:E1; [apply beqb_eq in E1; congruence|].
  destruct (beqb (n_pkp cs) (n_cert cs)) eqn:E2; [apply beqb_eq in E2; congruence|].
  destruct (beqb (n_pkp cs) (n_key cs)) eqn:E3; [apply beqb_eq in E3; congruence|].
  destruct (rget (n_cert cs) m) as [lc|] eqn:G1, (rget (n_key cs) m) as [lk|] eqn:G2, (rget (n_pkp cs) m) as [lp|] eqn:G3; try discriminate H.
  apply bind_io in H as [H|(u1 & D1 & H)]; [exfalso; exact (dup_io _ _ _ H)|]. apply bind_io in H as [H|(u2 & D2 & H)]; [exfalso; exact (dup_io _ _ _ H)|].
  apply bind_io in H as [H|(u3 & D3 & H)]; [exfalso; exact (dup_io _ _ _ H)|].
  apply bind_io in H as [H|(c0 & F1 & H)]; [exfalso; exact (first_io _ H)|]. apply bind_io in H as [H|(k0 & F2 & H)]; [exfalso; exact (first_io _ H)|].
  apply bind_io in H as [H|(p0 & F3 & H)]; [exfalso; exact (first_io _ H)|].
  apply bind_io in H as [H|(ep & _ & H)]; [|discriminate H].
  destruct (dup_ok _ _ _ _ D1) as (c1 & ->), (dup_ok _ _ _ _ D2) as (k1 & ->), (dup_ok _ _ _ _ D3) as (p1 & ->). injection F1 as ->. injection F2 as ->. injection F3 as ->.
  unfold decode_tls_ep in H. apply reads_io in H; [|discriminate]. exists c0, k0, p0. auto.
Qed.

Lemma ep_io sc e : parse_endpoint sc e <> CIo.
Proof.
  unfold parse_endpoint. destruct (split_on x40 e) as [|pr [|hp [|]]]; try discriminate. destruct (split_on x3a hp) as [|h [|po [|]]]; try discriminate.
  destruct (parse_uint u16_max po); [|discriminate]. destruct (beqb pr (bstr "tcp")); [discriminate|]. destruct (beqb pr (bstr "tls")); discriminate.
Qed.
Lemma loop_io cs eps : forall m i s, endpoints_loop files cs eps m i s = CIo -> s = None /\ exists h p, arg_decode_tls files cs m h p = CIo.
Proof.
  induction eps as [|e eps IH]; intros m i s H; [discriminate H|]. cbn [endpoints_loop] in H.
  apply bind_io in H as [H|([[pr h] p] & _ & H)]; [exfalso; exact (ep_io _ _ H)|].
  destruct pr, i as [i|], s as [s|]; try discriminate H.
  - destruct (IH _ _ _ H) as [X _]. discriminate X.
  - exact (IH _ _ _ H).
  - apply bind_io in H as [H|([m' t'] & _ & H)]; [eauto|]. destruct (IH _ _ _ H) as [X _]. discriminate X.
  - apply bind_io in H as [H|([m' t'] & _ & H)]; [eauto|]. destruct (IH _ _ _ H) as [X _]. discriminate X.
Qed.

(** the options are looked at with the file options still there *)
Lemma auth_io cs m d : arg_decode_auth cs m d <> CIo.
Proof.
  unfold arg_decode_auth. destruct (rget (n_root cs) (rdel (n_driver cs) m)) as [r|]; [|discriminate]. intros H.
  apply bind_io in H as [H|(u & _ & H)]; [destruct (rget (n_driver cs) m); [exact (dup_io _ _ _ H)|discriminate H]|].
  apply bind_io in H as [H|(u' & _ & H)]; [exact (dup_io _ _ _ H)|].
  apply bind_io in H as [H|(pl & _ & H)].
  - destruct (rget (n_driver cs) m) as [d'|]; [|discriminate H]. apply bind_io in H as [H|(x & _ & H)]; [exact (first_io _ H)|]. destruct (beqb x (bstr "pwd")); discriminate H.
  - apply bind_io in H as [H|(x & _ & H)]; [exact (first_io _ H)|discriminate H].
Qed.
Lemma auth_args cs m d m' d' : arg_decode_auth cs m d = COk (m', d') -> m' = rdel (n_root cs) (rdel (n_driver cs) m).
Proof.
  unfold arg_decode_auth. destruct (rget (n_root cs) (rdel (n_driver cs) m)) as [r|]; [|discriminate]. unfold cbind.
  destruct (match rget (n_driver cs) m with Some d0 => argck_dup cs d0 (n_driver cs) | None => COk tt end); try discriminate.
  destruct (argck_dup cs r (n_driver cs)); try discriminate.
  match goal with |- context [match ?x with COk _ => _ | CErr _ _ => _ | CIo => _ | CPanic => _ end] => destruct x; try discriminate end.
  destruct (first r); try discriminate. intros H. now injection H as <- _.
Qed.
Lemma mode_io cs v d : arg_decode_mode cs v d <> CIo.
Proof.
  unfold arg_decode_mode. intros H. apply bind_io in H as [H|(u & _ & H)]; [exact (dup_io _ _ _ H)|]. apply bind_io in H as [H|(x & _ & H)]; [exact (first_io _ H)|].
  apply bind_io in H as [H|(y & _ & H)]; [|discriminate H]. destruct (beqb x (bstr "dev")); [discriminate H|]. destruct (beqb x (bstr "prod")); discriminate H.
Qed.
Lemma window_io cs v d : arg_decode_window cs v d <> CIo.
Proof.
  unfold arg_decode_window. intros H. apply bind_io in H as [H|(u & _ & H)]; [exact (dup_io _ _ _ H)|]. apply bind_io in H as [H|(x & _ & H)]; [exact (first_io _ H)|].
  destruct (parse_uint u64_max x); discriminate H.
Qed.
Lemma simple_io cs key f m d : (forall v d, f cs v d <> CIo) -> simple cs key f m d <> CIo.
Proof. intros NF H. unfold simple in H. destruct (rget key m); [|discriminate H]. apply bind_io in H as [H|(x & _ & H)]; [exact (NF _ _ H)|discriminate H]. Qed.
Lemma simple_args cs key f m d m' d' : simple cs key f m d = COk (m', d') -> forall k, k <> key -> rget k m' = rget k m.
Proof.
  unfold simple. destruct (rget key m); [|intros H k _; now injection H as <- _]. destruct (f cs l d); try discriminate. cbn. intros H k N. injection H as <- _.
  rewrite rget_rdel. destruct (beqb k key) eqn:E; [apply beqb_eq in E; contradiction|reflexivity].
Qed.

(** the names of the options of a source are different *)
Definition apart (cs : source) : Prop := NoDup [n_driver cs; n_root cs; n_mode cs; n_window cs; n_ep cs; n_key cs; n_cert cs; n_pkp cs].
Lemma apply_io cs m : apart cs -> apply_changes files cs m = CIo -> named cs m.
Proof.
  intros AP H. unfold apart in AP. rewrite !NoDup_cons_iff in AP. cbn [In] in AP. destruct AP as (A1 & A2 & A3 & A4 & A5 & A6 & A7 & _).
  unfold apply_changes in H. apply bind_io in H as [H|([m1 d1] & E1 & H)]; [exfalso; exact (auth_io _ _ _ H)|].
  apply bind_io in H as [H|([m2 d2] & E2 & H)]; [exfalso; exact (simple_io _ _ _ _ _ (mode_io cs) H)|].
  apply bind_io in H as [H|([m3 d3] & E3 & H)]; [exfalso; exact (simple_io _ _ _ _ _ (window_io cs) H)|].
  apply bind_io in H as [H|([m4 d4] & E4 & H)]; [|destruct m4; discriminate H].
  assert (G : forall k, In k [n_key cs; n_cert cs; n_pkp cs] -> rget k (rdel (n_ep cs) m3) = rget k m).
  { intros k I. rewrite rget_rdel. destruct (beqb k (n_ep cs)) eqn:X; [apply beqb_eq in X; subst k; cbn [In] in I; tauto|].
    rewrite (simple_args _ _ _ _ _ _ _ E3) by (intros ->; cbn [In] in I; tauto). rewrite (simple_args _ _ _ _ _ _ _ E2) by (intros ->; cbn [In] in I; tauto).
    rewrite (auth_args _ _ _ _ _ E1), !rget_rdel. destruct (beqb k (n_root cs)) eqn:X1; [apply beqb_eq in X1; subst k; cbn [In] in I; tauto|].
    destruct (beqb k (n_driver cs)) eqn:X2; [apply beqb_eq in X2; subst k; cbn [In] in I; tauto|reflexivity]. }
  unfold arg_decode_endpoints in H. destruct (rget (n_ep cs) m3) as [eps|]; [|discriminate H].
  assert (L : exists i s, endpoints_loop files cs eps (rdel (n_ep cs) m3) i s = CIo).
  { destruct eps as [|a [|b [|c r]]]; try discriminate H; apply bind_io in H as [H|([m5 [se ins]] & _ & H)]; eauto; destruct se, ins; discriminate H. }
  destruct L as (i & s & L). destruct (loop_io _ _ _ _ _ L) as (_ & h & p & T). apply tls_io in T; [|intros X; apply A6; rewrite X; tauto|intros X; apply A7; rewrite X; tauto|intros X; apply A6; rewrite X; tauto].
  destruct T as (c & k & q & H1 & H2 & H3 & F). rewrite G in H1, H2, H3 by (cbn [In]; tauto). exists c, k, q. auto.
Qed.
Lemma validate_io sc d : validate sc d <> CIo.
Proof. unfold validate. destruct (k_auth d); [|discriminate]. destruct (_ =? 0)%N; [discriminate|]. destruct (_ <? 16)%N; discriminate. Qed.
End Files.
Lemma apart_cli : apart src_cli. Proof. unfold apart. repeat constructor; cbn [In]; intros H; repeat (destruct H as [H|H]; [vm_compute in H; discriminate H|]); exact H. Qed.
Lemma apart_env : apart src_env. Proof. unfold apart. repeat constructor; cbn [In]; intros H; repeat (destruct H as [H|H]; [vm_compute in H; discriminate H|]); exact H. Qed.

(** ** What the server wants to read *)

(** [wants d p]: for the purpose [d] the server needs the file [p], by the command line, the environment or the configuration file *)
Inductive wants (files : bytes -> option bytes) (yaml : bytes -> option decoded) (argv : list bytes) (env : bytes -> envvar) : bytes -> bytes -> Prop :=
| w_conf ps p : cmdline (tl argv) ps -> values (bstr "--config") ps = [p] -> wants files yaml argv env (bstr "loading configuration file from disk") p
| w_yaml ps f t d s x p : cmdline (tl argv) ps -> values (bstr "--config") ps = [f] -> files f = Some t -> yaml t = Some d ->
    k_endpoints d = Some (Some s, x) -> In p [s_cert s; s_key s; s_pass s] -> wants files yaml argv env (bstr "loading TLS configuration from disk") p
| w_cli ps o p : cmdline (tl argv) ps -> values (bstr "--config") ps = [] -> In o [OCert; OKey; OPass] -> values (cli_name o) ps = [p] ->
    wants files yaml argv env (bstr "loading TLS configuration from disk") p
| w_env o p : tl argv = [] -> In o [OCert; OKey; OPass] -> env (env_name o) = Var p -> wants files yaml argv env (bstr "loading TLS configuration from disk") p.

Lemma find_gone files l p : find (gone files) l = Some p -> In p l /\ files p = None.
Proof. intros H. apply find_some in H as [I G]. split; [exact I|]. unfold gone in G. destruct (files p); [discriminate G|reflexivity]. Qed.
Lemma find_tls files l p : find (gone files) l = Some p -> find (fun x => match files (snd x) with Some _ => false | None => true end) (map (fun q => (d_tls, q)) l) = Some (d_tls, p).
Proof.
  induction l as [|a l IH]; cbn [find map snd]; [discriminate|]. unfold gone at 1. destruct (files a); [exact IH|]. intros H. injection H as ->. reflexivity.
Qed.
Lemma env_get env m k v : parse_env env = COk (Some m) -> rget k m = Some v -> exists t, env k = Var t /\ v = split_on x2c t.
Proof.
  unfold parse_env. intros H G. destruct (env_loop env env_keys []) as [m0| | |] eqn:E; try discriminate H. cbn [cbind] in H.
  assert (m0 = m) by (destruct m0; [discriminate H|injection H as <-; reflexivity]). subst m0.
  rewrite (proj2 (env_loop_ok _ _ _ _ E)) in G. destruct (existsb (beqb k) env_keys); [|discriminate G]. destruct (env k); try discriminate G. injection G as <-. eauto.
Qed.

Lemma io_failed files yaml utf8 argv env : check files yaml utf8 argv env = CIo ->
  exists d p, failed files yaml argv env = Some (d, p) /\ wants files yaml argv env d p /\ files p = None.
Proof.
  intros H. unfold check in H. apply bind_io in H as [H|(ea & EE & H)].
  { exfalso. unfold parse_env in H. apply bind_io in H as [H|(m & _ & H)]; [|discriminate H]. destruct (env_loop_cases env) as [[(m & E) _]|[(k & E) _]]; rewrite E in H; discriminate H. }
  destruct (negb (forallb utf8 argv)); [discriminate H|]. apply bind_io in H as [H|(cl & EC & H)]; [exfalso; exact (proj2 (cli_no_panic _ _ _ (le_n _)) H)|].
  pose proof EC as CM. unfold parse_cli in CM. apply cli_iff in CM. unfold failed, reads, conf_path, at_work, args_of. rewrite EC.
  destruct cl as [| | |m]; try discriminate H.
  - destruct ea as [m|]; [|discriminate H]. destruct CM as [AR _]. unfold apply_and_validate in H.
    apply bind_io in H as [H|(d & _ & H)]; [|apply bind_io in H as [H|(c & _ & H)]; [exfalso; exact (validate_io _ _ H)|discriminate H]].
    destruct (apply_io files _ _ apart_env H) as (c & k & q & G1 & G2 & G3 & p & F). rewrite EE. cbn [flat_map]. rewrite G1, G2, G3. cbn [app].
    exists d_tls, p. split; [exact (find_tls files [k; c; q] p F)|]. destruct (find_gone _ _ _ F) as [I N]. split; [|exact N].
    destruct (env_get _ _ _ _ EE G1) as (t1 & V1 & S1), (env_get _ _ _ _ EE G2) as (t2 & V2 & S2), (env_get _ _ _ _ EE G3) as (t3 & V3 & S3).
    symmetry in S1, S2, S3. apply split_one in S1 as [_ S1], S2 as [_ S2], S3 as [_ S3]. subst t1 t2 t3.
    destruct I as [<-|[<-|[<-|[]]]]; [apply (w_env files yaml argv env OKey)|apply (w_env files yaml argv env OCert)|apply (w_env files yaml argv env OPass)]; cbn [In]; tauto.
  - destruct CM as (ps & C & -> & NE). pose proof (rget_pushes0 ps) as RP. rewrite (RP arg_config) in *. destruct (values arg_config ps) as [|f l] eqn:VC.
    + destruct ea; [discriminate H|]. unfold apply_and_validate in H.
      apply bind_io in H as [H|(d & _ & H)]; [|apply bind_io in H as [H|(c & _ & H)]; [exfalso; exact (validate_io _ _ H)|discriminate H]].
      destruct (apply_io files _ _ apart_cli H) as (c & k & q & G1 & G2 & G3 & p & F). cbn [flat_map]. rewrite G1, G2, G3. cbn [app].
      exists d_tls, p. split; [exact (find_tls files [k; c; q] p F)|]. destruct (find_gone _ _ _ F) as [I N]. split; [|exact N].
      assert (W : forall o x, rget (cli_name o) (pushes ps []) = Some [x] -> values (cli_name o) ps = [x]) by (intros o x G; rewrite RP in G; destruct (values (cli_name o) ps); [discriminate G|congruence]).
      destruct I as [<-|[<-|[<-|[]]]]; [apply (w_cli files yaml argv env ps OKey)|apply (w_cli files yaml argv env ps OCert)|apply (w_cli files yaml argv env ps OPass)];
        try exact C; try exact VC; cbn [In]; try tauto; apply W; assumption.
    + unfold check_file in H. destruct (pushes ps []) as [|a [|b r]]; try discriminate H. destruct ea; [discriminate H|].
      apply bind_io in H as [H|(u & D & H)]; [exfalso; exact (dup_io _ _ _ H)|]. destruct (dup_ok _ _ _ _ D) as (f' & X). injection X as <- ->. cbn [first cbind] in H.
      apply bind_io in H as [H|(t & T & H)].
      * apply read_io in H. cbn [find snd]. rewrite H. exists d_conf, f. split; [reflexivity|]. split; [exact (w_conf files yaml argv env ps f C VC)|exact H].
      * assert (FT : files f = Some t) by (unfold read_file in T; destruct (files f); [injection T as ->; reflexivity|discriminate T]).
        destruct (yaml t) as [d|] eqn:Y; [|discriminate H]. cbn [find snd]. rewrite FT, Y.
        apply bind_io in H as [H|(d' & _ & H)]; [|apply bind_io in H as [H|(c & _ & H)]; [exfalso; exact (validate_io _ _ H)|discriminate H]].
        destruct (k_endpoints d) as [[[s|] x]|] eqn:KE; try discriminate H. apply reads_io in H as (p & F); [|discriminate].
        exists d_tls, p. split; [exact (find_tls files [s_cert s; s_key s; s_pass s] p F)|]. destruct (find_gone _ _ _ F) as [I N]. split; [|exact N].
        exact (w_yaml files yaml argv env ps f t d s x p C VC FT Y KE I).
Qed.

(** ** C125 *)

(** If a file cannot be read, the message says what it is for and holds the system's text for a file of that purpose that cannot be read. *)
Theorem C125_unread_file : forall files yaml utf8 yerr ioerr argv env, check files yaml utf8 argv env = CIo ->
  exists d p, wants files yaml argv env d p /\ files p = None /\ says files yaml utf8 yerr ioerr argv env = Some (bstr "runtime error: " ++ d ++ bstr "; io error: " ++ ioerr p).
Proof.
  intros files yaml utf8 yerr ioerr argv env H. destruct (io_failed _ _ _ _ _ H) as (d & p & F & W & N). exists d, p. split; [exact W|]. split; [exact N|].
  unfold says. rewrite H, F, unread_str_eq. reflexivity.
Qed.
(** Something is said exactly when a configuration is refused. *)
Theorem C125_always_a_reason : forall files yaml utf8 yerr ioerr argv env,
  (exists t, says files yaml utf8 yerr ioerr argv env = Some t) <-> (exists s k, check files yaml utf8 argv env = CErr s k) \/ check files yaml utf8 argv env = CIo.
Proof.
  intros files yaml utf8 yerr ioerr argv env. split.
  - intros (t & H). unfold says in H. destruct (check files yaml utf8 argv env); try discriminate H; eauto.
  - intros [(s & k & H)|H]; [|destruct (C125_unread_file files yaml utf8 yerr ioerr argv env H) as (d & p & _ & _ & S); eauto]. unfold says. rewrite H. eauto.
Qed.

Lemma wants_two files yaml argv env d p : wants files yaml argv env d p -> d = d_conf \/ d = d_tls.
Proof. intros []; auto. Qed.
(** Two refusals with the same words, on any two machines: the same source, mistake and names; or files of the same purpose of which the systems say the same.
    Missing (refuted below): that it is the same one of the TLS files. *)
Theorem C125_same_words_partial : forall files yaml utf8 yerr ioerr argv env files' yaml' utf8' yerr' ioerr' argv' env' t,
  says files yaml utf8 yerr ioerr argv env = Some t -> says files' yaml' utf8' yerr' ioerr' argv' env' = Some t ->
  (exists s k, check files yaml utf8 argv env = CErr s k /\ check files' yaml' utf8' argv' env' = CErr s k) \/
  (check files yaml utf8 argv env = CIo /\ check files' yaml' utf8' argv' env' = CIo /\
   exists d p p', wants files yaml argv env d p /\ files p = None /\ wants files' yaml' argv' env' d p' /\ files' p' = None /\ ioerr p = ioerr' p').
Proof.
  intros files yaml utf8 yerr ioerr argv env files' yaml' utf8' yerr' ioerr' argv' env' t S S'.
  destruct (check files yaml utf8 argv env) as [r|s k| |] eqn:E; unfold says in S; rewrite E in S; try discriminate S;
  destruct (check files' yaml' utf8' argv' env') as [r'|s' k'| |] eqn:E'; unfold says in S'; rewrite E' in S'; try discriminate S'.
  - left. injection S as S. injection S' as S'. rewrite <- S' in S. destruct (refused_inj _ _ _ _ _ _ _ _ S) as [<- <-]. eauto.
  - exfalso. destruct (failed files' yaml' argv' env') as [[d p]|]; [|discriminate S']. rewrite unread_str_eq in S'. rewrite <- S' in S. lazy in S. discriminate S.
  - exfalso. destruct (failed files yaml argv env) as [[d p]|]; [|discriminate S]. rewrite unread_str_eq in S. rewrite <- S' in S. lazy in S. discriminate S.
  - right. split; [reflexivity|]. split; [reflexivity|]. destruct (io_failed _ _ _ _ _ E) as (d & p & F & W & N), (io_failed _ _ _ _ _ E') as (d' & p' & F' & W' & N').
    rewrite F, unread_str_eq in S. rewrite F', unread_str_eq in S'. rewrite <- S' in S. injection S as S.
    assert (D : d = d') by (destruct (wants_two _ _ _ _ _ _ W) as [-> | ->], (wants_two _ _ _ _ _ _ W') as [-> | ->]; try reflexivity; lazy in S; discriminate S).
    subst d'. apply app_inv_head in S. injection S as S. eauto 12.
Qed.

(** ** Concrete cases *)
Definition ex_gone : bytes -> bytes := fun _ => bstr "No such file or directory (os error 2)".
Definition ex_without (g : string) : bytes -> option bytes := fun p => if beqb p (bstr g) then None else Some (bstr "DATA").
Definition ex_argv : list bytes := map bstr ["skyd"; "--auth-root-password"; "password12345678"; "--endpoint=tls@0.0.0.0:2004"; "--tlscert"; "c.pem"; "--tlskey=k.pem"; "--tls-passphrase"; "p.txt"].
Definition ex_says (g : string) := says (ex_without g) (fun _ => None) utf8_ok (fun _ => bstr "bad indentation") ex_gone.
(** The message does not tell which file: without the certificate and without the key the same is said, of one command line. *)
Theorem C125_which_file_refuted : exists argv t, let env := fun _ => NotPresent in
  ex_says "c.pem" argv env = Some t /\ ex_says "k.pem" argv env = Some t /\
  (forall p, ex_without "c.pem" p = None -> ex_without "k.pem" p <> None) /\
  check (ex_without "c.pem") (fun _ => None) utf8_ok argv env = CIo /\ check (ex_without "k.pem") (fun _ => None) utf8_ok argv env = CIo.
Proof.
  exists ex_argv. eexists. cbv zeta. split; [vm_compute; reflexivity|]. split; [vm_compute; reflexivity|]. split; [|split; vm_compute; reflexivity].
  intros p H. unfold ex_without in *. destruct (beqb p (bstr "c.pem")) eqn:E; [|discriminate H]. apply beqb_eq in E. subst p. vm_compute. discriminate.
Qed.
Example C125_unread_example : ex_says "c.pem" ex_argv (fun _ => NotPresent) = Some (bstr "runtime error: loading TLS configuration from disk; io error: No such file or directory (os error 2)") /\
  ex_says "cfg.yaml" (map bstr ["skyd"; "--config"; "cfg.yaml"]) (fun _ => NotPresent) =
    Some (bstr "runtime error: loading configuration file from disk; io error: No such file or directory (os error 2)").
Proof. vm_compute. auto. Qed.
Example C125_refused_example :
  ex_says "" (map bstr ["skyd"; "--mode"; "dev"]) (fun _ => NotPresent) =
    Some (bstr "init system error: config error: config error in CLI: to enable auth, you must provide values for --auth-plugin") /\
  ex_says "" (map bstr ["skyd"; "--auth-root-password"; "password12345678"; "--mode"; "dev"; "--mode"; "prod"]) (fun _ => NotPresent) =
    Some (bstr "init system error: config error: config error in CLI: Too many values for --mode") /\
  ex_says "" (map bstr ["skyd"; "--config"; "c.yaml"]) (fun _ => NotPresent) =
    Some (bstr "init system error: config error: config error in config file: failed to parse YAML config file with error: `bad indentation`").
Proof. vm_compute. auto. Qed.

Print Assumptions C125_unread_file.
Print Assumptions C125_always_a_reason.
Print Assumptions C125_same_words_partial.
Print Assumptions C125_which_file_refuted.
