(** C12-C17, C41, C54: the namespace, its log, users and sessions. *)
From Coq Require Import Strings.String List Arith NArith Lia Bool Permutation.
From Verif Require Import Bytes DataModel CodecModel CodecProofs GnsCodecModel GnsCodecProofs AMap DictModel DictProofs
  TypeModel TypeProofs HeaderModel HeaderProofs WriterModel WriterProofs JournalModel JournalProofs JournalLog JournalProps GnsModel GnsProofs GnsHist.
Import ListNotations.
Open Scope N_scope.

(** ** C12: a restart reproduces the namespace *)

(** Exact, for every history in which no forced DROP SPACE failed at the log and no ALTER SPACE set
    the environment to null. Missing for the full statement: those two cases, both refuted below. *)
Theorem C12_restart_exact_partial : forall order hash verify,
  (forall l, Permutation (order l) l) ->
  forall key salt l sv key' salt', hist order hash verify key salt l sv ->
  Forall op_nd l -> Forall no_failed_drop l -> Forall no_null_op l ->
  exists w, boot hash verify key' salt' (w_log (sv_w sv)) = Some w /\
    n_spaces (w_ns w) = n_spaces (w_ns (sv_w sv)) /\ n_models (w_ns w) = n_models (w_ns (sv_w sv)) /\
    forall u, u <> ROOT -> aget bseq u (n_users (w_ns w)) = aget bseq u (n_users (w_ns (sv_w sv))).
Proof.
  intros order hash verify OP key salt l sv key' salt' H ND NF NN.
  destruct (hist_inv _ _ _ OP _ _ _ _ H ND NF) as [_ HX]. destruct (HX NN) as [_ E].
  unfold boot. rewrite E. destruct (verify_user _ _ _ _); eexists; (split; [reflexivity|]); cbn [w_ns set_users n_spaces n_models n_users]; auto.
  split; [reflexivity|]. split; [reflexivity|]. intros u NU.
  destruct (aget bseq ROOT _); [|reflexivity]. apply (aget_put_other bseq bseq_eq). exact NU.
Qed.
Print Assumptions C12_restart_exact_partial.

(** Without the condition on null environments the server still starts, with the same models, users
    and spaces; the only possible difference is a space whose properties are gone. *)
Theorem C12_restart_up_to_env_partial : forall order hash verify,
  (forall l, Permutation (order l) l) ->
  forall key salt l sv key' salt', hist order hash verify key salt l sv ->
  Forall op_nd l -> Forall no_failed_drop l ->
  exists w, boot hash verify key' salt' (w_log (sv_w sv)) = Some w /\
    n_models (w_ns w) = n_models (w_ns (sv_w sv)) /\
    (forall u, u <> ROOT -> aget bseq u (n_users (w_ns w)) = aget bseq u (n_users (w_ns (sv_w sv)))) /\
    akeys (n_spaces (w_ns w)) = akeys (n_spaces (w_ns (sv_w sv))) /\
    forall name s, aget bseq name (n_spaces (w_ns (sv_w sv))) = Some s ->
      exists s', aget bseq name (n_spaces (w_ns w)) = Some s' /\ sp_uuid s' = sp_uuid s /\
        sp_models s' = sp_models s /\ (sp_props s' = sp_props s \/ sp_props s' = []).
Proof.
  intros order hash verify OP key salt l sv key' salt' H ND NF.
  destruct (hist_inv _ _ _ OP _ _ _ _ H ND NF) as [[_ _ (n' & E & R)] _].
  assert (SP : forall name s, aget bseq name (n_spaces (w_ns (sv_w sv))) = Some s ->
      exists s', aget bseq name (n_spaces n') = Some s' /\ sp_uuid s' = sp_uuid s /\
        sp_models s' = sp_models s /\ (sp_props s' = sp_props s \/ sp_props s' = [])).
  { intros name s ES. destruct (rel_get_lr _ _ _ _ R ES) as (s' & E1 & E2 & E3 & E4). exists s'.
    repeat split; auto. destruct E4; auto. }
  assert (KE : akeys (n_spaces n') = akeys (n_spaces (w_ns (sv_w sv)))).
  { symmetry. apply rel_keys, R. }
  destruct R as (_ & HM & HU).
  unfold boot. rewrite E. destruct (verify_user _ _ _ _); eexists; (split; [reflexivity|]); cbn [w_ns set_users n_spaces n_models n_users];
    (split; [auto|]; split; [intros u NU|split; [exact KE|exact SP]]); rewrite HU; auto.
  destruct (aget bseq ROOT _); [|reflexivity]. apply (aget_put_other bseq bseq_eq). exact NU.
Qed.
Print Assumptions C12_restart_up_to_env_partial.

(** The same through the file: the log events, encoded and committed to the journal in any division
    into sessions and then read back byte by byte, yield the namespace in memory (the users
    included). *)
Definition ev_rec (e : gns_event) : elev := (ev_code e, enc_event e).
Definition ev_disp (utf8 : bytes -> bool) (code : N) (pl : bytes) (n : ns) : option ns :=
  match dec_event utf8 code pl with ROk e => apply_event n e | _ => None end.

Lemma apply_replay utf8 l : forall n, Forall (event_wf utf8) l ->
  apply_events ns (ev_disp utf8) (map ev_rec l) n = replay n l.
Proof.
  induction l as [|e l IH]; intros n H; [reflexivity|]. inversion H; subst. cbn [map apply_events replay].
  unfold ev_rec at 1, ev_disp at 1. rewrite event_roundtrip by auto. destruct (apply_event n e); auto.
Qed.

Lemma evs_size_in e evs : In e evs -> len (snd e) < evs_size evs.
Proof.
  unfold evs_size. induction evs as [|x evs IH]; intros H; [contradiction|]. cbn [fold_right].
  destruct H as [->|H]; [lia|]. apply IH in H. lia.
Qed.
Lemma life_size_in evs ss : In evs ss -> evs_size evs < life_size ss.
Proof.
  unfold life_size. induction ss as [|x ss IH]; intros H; [contradiction|]. cbn [fold_right].
  destruct H as [->|H]; [lia|]. apply IH in H. lia.
Qed.
Lemma ev_code_lt e : ev_code e < 11.
Proof. destruct e; cbn; lia. Qed.

Theorem C12_on_disk_partial : forall order hash verify utf8,
  (forall l, Permutation (order l) l) ->
  forall key salt l sv, hist order hash verify key salt l sv ->
  Forall op_nd l -> Forall no_failed_drop l -> Forall no_null_op l ->
  forall cap nkinds b sp hdr ss, 11 <= nkinds -> nkinds <= 256 -> 0 < cap -> hdr_ok b sp hdr ->
  concat ss = w_log (sv_w sv) -> Forall (event_wf utf8) (w_log (sv_w sv)) ->
  life_size (map (map ev_rec) ss) < two64 ->
  exists file j, life cap nkinds ns (ev_disp utf8) b sp hdr ns_empty (map (map ev_rec) ss) = Some (Some file) /\
    log_open nkinds ns (ev_disp utf8) b sp [] file ns_empty = JOk (w_ns (sv_w sv), (j, WOk)).
Proof.
  intros order hash verify utf8 OP key salt l sv H ND NF NN cap nkinds b sp hdr ss HK1 HK2 HC HH ES EW SZ.
  destruct (hist_inv _ _ _ OP _ _ _ _ H ND NF) as [_ HX]. destruct (HX NN) as [_ E].
  apply C06_clean_reopen_replays_history; auto.
  - intros X. apply map_eq_nil in X. subst ss. cbn in ES. rewrite <- ES in E. cbn in E. inversion E.
    destruct (hist_root _ _ _ _ _ _ _ H) as [_ [h HR]]. rewrite <- H1 in HR. discriminate.
  - rewrite Forall_forall. intros evs HE. rewrite Forall_forall. intros e He. split.
    + apply in_map_iff in HE as (x & <- & _). apply in_map_iff in He as (y & <- & _).
      pose proof (ev_code_lt y). unfold ev_rec. cbn [fst]. lia.
    + apply evs_size_in in He. apply life_size_in in HE. lia.
  - rewrite <- (apply_replay utf8) in E by exact EW.
    rewrite <- ES in E. rewrite concat_map in E. exact E.
Qed.
Print Assumptions C12_on_disk_partial.

(** a concrete server: password "hash" that keeps the password, fields iterated in order *)
Definition gx_order (m : fieldmap) : fieldmap := m.
Definition gx_hash (p : bytes) (_ : N) : bytes := p.
Definition gx_verify (p h : bytes) : bool := bseq p h.
Definition gx_env (u : N) (c : bool) : env := mk_env u true c 0 0.
Definition gx_pw : bytes := bstr "rootpassword0000"%string.
Definition gx_s : bytes := bstr "shop"%string.
Definition gx_m : bytes := bstr "items"%string.
Definition gx_layer (t : string) : layer_spec := mk_ls (bstr t) [].
Definition gx_fields : list field_spec :=
  [mk_fs (bstr "id"%string) [gx_layer "uint64"%string] false true;
   mk_fs (bstr "name"%string) [gx_layer "string"%string] true false].
Definition gx_run (ops : list op) := trace gx_order gx_hash gx_verify (start gx_hash gx_pw 0) ops.
Definition gx_cell (n : N) : dentry := DData (CQw QU64 n).
Definition gx_pass (p : string) : dict := [(bstr "password"%string, DData (CStr (bstr p)))].

Definition gx_ops : list op :=
  [OpLogin ROOT gx_pw;
   OpStmt 0 (gx_env 11 true) (SCreateSpace gx_s [(KEY_ENV, DMap [(bstr "k"%string, gx_cell 7)])] false);
   OpStmt 0 (gx_env 12 true) (SCreateModel (gx_s, gx_m) gx_fields [] false);
   OpStmt 0 (gx_env 13 true) (SAlterModel (gx_s, gx_m) (AkAdd [mk_ef (bstr "tags"%string) [gx_layer "string"%string; gx_layer "list"%string] []]));
   OpStmt 0 (gx_env 14 false) (SAlterSpace gx_s [(KEY_ENV, DMap [(bstr "z"%string, gx_cell 1)])]);
   OpRepair;
   OpStmt 0 (gx_env 15 true) (SAlterSpace gx_s [(KEY_ENV, DMap [(bstr "z"%string, gx_cell 2)])]);
   OpStmt 0 (gx_env 16 true) (SCreateUser (bstr "ana"%string) (gx_pass "pw1"));
   OpStmt 0 (gx_env 17 true) (SCreateUser (bstr "bob"%string) (gx_pass "pw2"));
   OpStmt 0 (gx_env 18 true) (SDropUser (bstr "bob"%string));
   OpStmt 0 (gx_env 19 true) (SCreateSpace (bstr "old"%string) [] false);
   OpStmt 0 (gx_env 20 true) (SDropSpace (bstr "old"%string) true true);
   OpRestart gx_pw 0;
   OpLogin (bstr "ana"%string) (bstr "pw1"%string);
   OpStmt 0 (gx_env 21 true) (SDropUser ROOT)].

Lemma gx_perm : forall l : fieldmap, Permutation (gx_order l) l.
Proof. intros l. apply Permutation_refl. Qed.
Definition gx_hist := hist gx_order gx_hash gx_verify gx_pw 0.
Lemma gx_run_hist ops l sv : gx_run ops = Some (l, sv) -> gx_hist l sv.
Proof. apply trace_start. Qed.

(** decidable versions of the side conditions, for the examples *)
Fixpoint nd_b (e : dentry) : bool :=
  match e with
  | DData _ => true
  | DMap d => no_dups (map fst d) && (fix all (l : dict) := match l with [] => true | (_, x) :: l' => nd_b x && all l' end) d
  end.
Fixpoint entry_size (e : dentry) : nat :=
  match e with
  | DData _ => 1%nat
  | DMap d => S ((fix sum (l : dict) := match l with [] => 0%nat | (_, x) :: l' => (entry_size x + sum l')%nat end) d)
  end.
Lemma nd_b_ok e : nd_b e = true -> entry_nd e.
Proof.
  assert (X : forall n e, (entry_size e <= n)%nat -> nd_b e = true -> entry_nd e).
  { clear e. induction n as [|n IH]; intros e L H; [destruct e; cbn in L; lia|].
    destruct e as [c|d]; [constructor|]. cbn [nd_b] in H. apply andb_true_iff in H as [H1 H2].
    constructor; [apply no_dups_ok; exact H1|]. cbn [entry_size] in L. clear H1.
    induction d as [|[k x] d IHd]; [constructor|]. cbn in H2, L. apply andb_true_iff in H2 as [H2 H3].
    constructor; [cbn [snd]; apply IH; [lia|exact H2]|]. apply IHd; [lia|exact H3]. }
  apply (X (entry_size e)). lia.
Qed.
Definition op_nd_b (x : op * op_out) : bool :=
  match fst x with
  | OpStmt _ _ (SCreateSpace _ p _) | OpStmt _ _ (SAlterSpace _ p) => nd_b (DMap p)
  | _ => true
  end.
Definition nfd_b (x : op * op_out) : bool :=
  match x with (OpStmt _ _ (SDropSpace _ true _), OutStmt (OErr ErrServer)) => false | _ => true end.
Definition nno_b (x : op * op_out) : bool :=
  match fst x with OpStmt _ _ (SAlterSpace _ p) => match dget KEY_ENV p with Some (DData CNull) => false | _ => true end | _ => true end.
Lemma op_nd_b_ok l : forallb op_nd_b l = true -> Forall op_nd l.
Proof.
  intros H. rewrite forallb_forall in H. apply Forall_forall. intros x Hx. apply H in Hx.
  destruct x as [[u p|i en s| |k s] out]; cbn in *; auto. destruct s; cbn in *; auto; apply nd_b_ok; exact Hx.
Qed.
Lemma nfd_b_ok l : forallb nfd_b l = true -> Forall no_failed_drop l.
Proof.
  intros H. rewrite forallb_forall in H. apply Forall_forall. intros x Hx. apply H in Hx.
  destruct x as [[u p|i en s| |k s] [b|o|]]; cbn in *; auto. intros X. destruct s; cbn in X; try contradiction.
  destruct force; [|contradiction]. subst. discriminate.
Qed.
Lemma nno_b_ok l : forallb nno_b l = true -> Forall no_null_op l.
Proof.
  intros H. rewrite forallb_forall in H. apply Forall_forall. intros x Hx. apply H in Hx.
  destruct x as [[u p|i en s| |k s] out]; cbn in *; auto. destruct s; cbn in *; auto.
  intros X. rewrite X in Hx. discriminate.
Qed.

(** a history with successes, failures, a repair and a restart that meets the hypotheses, and what is
    there at the end *)
Definition gx_check (ops : list op) : bool :=
  match gx_run ops with
  | Some (l, _) => forallb op_nd_b l && forallb nfd_b l && forallb nno_b l
  | None => false
  end.
Example C12_example : gx_check gx_ops = true /\
  option_map (fun r => map snd (fst r)) (gx_run gx_ops) = Some
    [OutLogin true; OutStmt OEmpty; OutStmt OEmpty; OutStmt OEmpty; OutStmt (OErr ErrServer); OutNone;
     OutStmt OEmpty; OutStmt OEmpty; OutStmt OEmpty; OutStmt OEmpty; OutStmt OEmpty; OutStmt (OBool true);
     OutNone; OutLogin true; OutStmt (OErr ErrPermission)] /\
  option_map (fun r => let n := w_ns (sv_w (snd r)) in
     (map (fun x => (fst x, sp_models (snd x), sp_props (snd x))) (n_spaces n),
      map (fun x => (fst x, map fst (lo_fields (md_lay (snd x))))) (n_models n), map fst (n_users n))) (gx_run gx_ops)
  = Some ([(gx_s, [gx_m], [(KEY_ENV, DMap [(bstr "k"%string, gx_cell 7); (bstr "z"%string, gx_cell 2)])])],
          [((gx_s, gx_m), [bstr "id"%string; bstr "name"%string; bstr "tags"%string])],
          [ROOT; bstr "ana"%string]).
Proof. repeat split; vm_compute; reflexivity. Qed.

(** *** The full statement is false *)

(** ALTER SPACE with a null environment, then a new setting: it is acknowledged, visible, and gone
    after a restart *)
Definition gx_null_ops : list op :=
  [OpLogin ROOT gx_pw;
   OpStmt 0 (gx_env 11 true) (SCreateSpace gx_s [] false);
   OpStmt 0 (gx_env 12 true) (SAlterSpace gx_s [(KEY_ENV, DData CNull)]);
   OpStmt 0 (gx_env 13 true) (SAlterSpace gx_s [(KEY_ENV, DMap [(bstr "k"%string, gx_cell 1)])])].

Theorem C12_env_null_refuted : exists l sv w, gx_hist l sv /\ Forall op_nd l /\
  Forall (fun x => snd x = OutLogin true \/ snd x = OutStmt OEmpty) l /\
  boot gx_hash gx_verify gx_pw 0 (w_log (sv_w sv)) = Some w /\
  option_map sp_props (aget bseq gx_s (n_spaces (w_ns (sv_w sv)))) = Some [(KEY_ENV, DMap [(bstr "k"%string, gx_cell 1)])] /\
  option_map sp_props (aget bseq gx_s (n_spaces (w_ns w))) = Some [].
Proof.
  destruct (gx_run gx_null_ops) as [[l sv]|] eqn:E; [|vm_compute in E; discriminate].
  destruct (boot gx_hash gx_verify gx_pw 0 (w_log (sv_w sv))) as [w|] eqn:EB.
  2:{ vm_compute in E. inversion E; subst. vm_compute in EB. discriminate. }
  exists l, sv, w. split; [eapply gx_run_hist; eauto|].
  vm_compute in E. inversion E; subst; clear E. vm_compute in EB. inversion EB; subst; clear EB.
  split; [apply op_nd_b_ok; vm_compute; reflexivity|].
  split; [repeat (apply Forall_cons; [cbn [snd]; auto|]); apply Forall_nil|].
  split; [reflexivity|]. split; vm_compute; reflexivity.
Qed.
Print Assumptions C12_env_null_refuted.

(** a forced DROP SPACE whose log write fails, then (after the log is repaired) CREATE SPACE with the
    same name: the server never starts again *)
Definition gx_drop_ops : list op :=
  [OpLogin ROOT gx_pw;
   OpStmt 0 (gx_env 11 true) (SCreateSpace gx_s [] false);
   OpStmt 0 (gx_env 12 false) (SDropSpace gx_s true false);
   OpRepair;
   OpStmt 0 (gx_env 13 true) (SCreateSpace gx_s [] false)].

Theorem C12_failed_drop_refuted : exists l sv, gx_hist l sv /\ Forall op_nd l /\ Forall no_null_op l /\
  map snd l = [OutLogin true; OutStmt OEmpty; OutStmt (OErr ErrServer); OutNone; OutStmt OEmpty] /\
  forall key salt, boot gx_hash gx_verify key salt (w_log (sv_w sv)) = None.
Proof.
  destruct (gx_run gx_drop_ops) as [[l sv]|] eqn:E; [|vm_compute in E; discriminate].
  exists l, sv. split; [eapply gx_run_hist; eauto|].
  vm_compute in E. inversion E; subst; clear E.
  split; [apply op_nd_b_ok; vm_compute; reflexivity|]. split; [apply nno_b_ok; vm_compute; reflexivity|].
  split; [reflexivity|]. intros key salt. vm_compute. reflexivity.
Qed.
Print Assumptions C12_failed_drop_refuted.

(** ** C13: a failed statement changes nothing *)

(** In every state whatsoever, for every statement and every failure, except the forced DROP SPACE
    whose log write fails (refuted below). *)
Theorem C13_failed_changes_nothing_partial : forall order hash se en w s w' e,
  exec_stmt order hash se en w s = (w', OErr e) ->
  ~ (exists name ex, s = SDropSpace name true ex /\ e = ErrServer) ->
  w_ns w' = w_ns w /\ w_log w' = w_log w.
Proof.
  intros order hash se en w s w' e H N. apply exec_error in H as [H|H]; [exact H|contradiction].
Qed.
Print Assumptions C13_failed_changes_nothing_partial.

Example C13_example : exists l sv en w', gx_hist l sv /\
  exec_stmt gx_order gx_hash (mk_session ROOT true) en (sv_w sv)
    (SCreateModel (gx_s, bstr "second"%string) gx_fields [] false) = (w', OErr ErrServer) /\
  w_iffy w' = true /\ n_models (w_ns w') <> [] /\ w_ns w' = w_ns (sv_w sv).
Proof.
  destruct (gx_run (firstn 3 gx_ops)) as [[l sv]|] eqn:E; [|vm_compute in E; discriminate].
  assert (H := gx_run_hist _ _ _ E). vm_compute in E.
  exists l, sv, (gx_env 30 false), (mk_world (w_ns (sv_w sv)) (w_log (sv_w sv)) true).
  split; [exact H|]. inversion E; subst; clear E H. split; [vm_compute; reflexivity|].
  repeat split. discriminate.
Qed.

(** the failing forced drop: the client sees an error, yet the space is gone *)
Theorem C13_failed_drop_refuted : exists l sv w',
  gx_hist l sv /\
  exec_stmt gx_order gx_hash (mk_session ROOT true) (gx_env 12 false) (sv_w sv) (SDropSpace gx_s true false)
    = (w', OErr ErrServer) /\
  aget bseq gx_s (n_spaces (w_ns (sv_w sv))) <> None /\ aget bseq gx_s (n_spaces (w_ns w')) = None.
Proof.
  destruct (gx_run (firstn 3 gx_ops)) as [[l sv]|] eqn:E; [|vm_compute in E; discriminate].
  assert (H := gx_run_hist _ _ _ E). vm_compute in E.
  exists l, sv, (mk_world (set_spaces (adel bseq gx_s (n_spaces (w_ns (sv_w sv)))) (w_ns (sv_w sv))) (w_log (sv_w sv)) true).
  split; [exact H|]. inversion E; subst; clear E H. split; [vm_compute; reflexivity|].
  split; vm_compute; [discriminate|reflexivity].
Qed.
Print Assumptions C13_failed_drop_refuted.

(** ** C14: root cannot be lost, only root administers *)

Theorem C14_root_always_exists : forall order hash verify key salt l sv,
  hist order hash verify key salt l sv -> exists h, aget bseq (bstr "root"%string) (n_users (w_ns (sv_w sv))) = Some h.
Proof. intros order hash verify key salt l sv H. apply (hist_root _ _ _ _ _ _ _ H). Qed.
Print Assumptions C14_root_always_exists.

(** a connection of another user: every administrative statement is refused and changes nothing *)
Theorem C14_only_root_administers : forall order hash verify key salt l sv i se en s,
  hist order hash verify key salt l sv ->
  nth_error (sv_sess sv) i = Some se -> se_user se <> bstr "root"%string -> s <> SReportStatus ->
  step order hash verify sv (OpStmt i en s) = Some (sv, OutStmt (OErr ErrPermission)).
Proof.
  intros order hash verify key salt l sv i se en s H EN NU NS.
  destruct (hist_root _ _ _ _ _ _ _ H) as [HS _]. unfold sess_ok in HS. rewrite Forall_forall in HS.
  pose proof (HS _ (nth_error_In _ _ EN)) as HR.
  assert (ER : se_root se = false).
  { destruct (se_root se); [|reflexivity]. exfalso. apply NU, HR. reflexivity. }
  cbn [step]. rewrite EN, exec_nonroot by auto. destruct sv; reflexivity.
Qed.
Print Assumptions C14_only_root_administers.

(** a reachable server with a connection of another user *)
Example C14_example : exists l sv, gx_hist l sv /\
  nth_error (sv_sess sv) 0 = Some (mk_session (bstr "ana"%string) false) /\ bstr "ana"%string <> ROOT.
Proof.
  destruct (gx_run gx_ops) as [[l sv]|] eqn:E; [|vm_compute in E; discriminate].
  exists l, sv. split; [eapply gx_run_hist; eauto|]. vm_compute in E. inversion E; subst.
  split; [reflexivity|discriminate].
Qed.

(** ** C15: login exactly with the right password *)

(** [same] is the equality of passwords as far as the hash can tell. The password of an account is
    read off the history: what a successful CREATE USER or ALTER USER gave it, for root what the
    configuration said at the last start. *)
Theorem C15_login_iff_password : forall order hash verify same,
  (forall p, same p p = true) -> (forall p q, same p q = same q p) ->
  (forall p q r, same p q = true -> same q r = true -> same p r = true) ->
  (forall p q s, verify p (hash q s) = same p q) ->
  forall key salt l sv u p, hist order hash verify key salt l sv ->
  ((exists sv', step order hash verify sv (OpLogin u p) = Some (sv', OutLogin true)) <->
   p <> [] /\ exists q, last_pw key l u = Some q /\ same p q = true).
Proof.
  intros order hash verify same R S T V key salt l sv u p H.
  rewrite <- (hist_login order hash verify same R S T V key salt l sv u p H). cbn [step].
  destruct (login verify (w_ns (sv_w sv)) u p) as [se|]; split; eauto.
  - intros [sv' X]. inversion X.
  - intros [se X]. discriminate.
Qed.
Print Assumptions C15_login_iff_password.

(** an accepted login opens a connection as that user; it is a root connection exactly for root *)
Theorem C15_root_rights_iff_root : forall order hash verify sv u p sv',
  step order hash verify sv (OpLogin u p) = Some (sv', OutLogin true) ->
  exists se, sv_sess sv' = sv_sess sv ++ [se] /\ sv_w sv' = sv_w sv /\ se_user se = u /\ (se_root se = true <-> u = bstr "root"%string).
Proof.
  change (bstr "root"%string) with ROOT.
  intros order hash verify sv u p sv'. cbn [step]. unfold login, verify_user.
  destruct (aget _ _ _) as [h|]; [|discriminate]. destruct p; [discriminate|].
  destruct (verify _ h); [|discriminate]. destruct (bseq u ROOT) eqn:EB; intros H; inversion H; subst; cbn [sv_sess sv_w];
    eexists; (split; [reflexivity|]); (split; [reflexivity|]); (split; [reflexivity|]); cbn [se_root].
  - apply bseq_eq in EB. tauto.
  - apply bseq_neq in EB. split; [discriminate|contradiction].
Qed.
Print Assumptions C15_root_rights_iff_root.

Example C15_example :
  (forall p q s, gx_verify p (gx_hash q s) = bseq p q) /\
  option_map (fun r => (last_pw gx_pw (fst r) (bstr "ana"%string), last_pw gx_pw (fst r) (bstr "bob"%string), last_pw gx_pw (fst r) ROOT))
    (gx_run gx_ops) = Some (Some (bstr "pw1"%string), None, Some gx_pw).
Proof. split; [reflexivity|vm_compute; reflexivity]. Qed.

(** ** C16: root can change a password — never works *)
Theorem C16_alter_user_never_works : forall order hash se en w name opts,
  exists e, exec_stmt order hash se en w (SAlterUser name opts) = (w, OErr e).
Proof.
  intros. unfold exec_stmt. destruct (se_root se); cbn [negb]; eauto.
Qed.
Print Assumptions C16_alter_user_never_works.

Theorem C16_alter_user_refuted : exists l sv i se, gx_hist l sv /\
  nth_error (sv_sess sv) i = Some se /\ se_user se = ROOT /\
  aget bseq (bstr "ana"%string) (n_users (w_ns (sv_w sv))) <> None /\
  step gx_order gx_hash gx_verify sv (OpStmt i (gx_env 50 true) (SAlterUser (bstr "ana"%string) (gx_pass "newpw")))
    = Some (sv, OutStmt (OErr ErrAuth)).
Proof.
  destruct (gx_run (firstn 9 gx_ops)) as [[l sv]|] eqn:E; [|vm_compute in E; discriminate].
  assert (H := gx_run_hist _ _ _ E). vm_compute in E.
  exists l, sv, 0%nat, (mk_session ROOT true). split; [exact H|]. inversion E; subst; clear E H.
  split; [reflexivity|]. split; [reflexivity|]. split; [vm_compute; discriminate|reflexivity].
Qed.
Print Assumptions C16_alter_user_refuted.

(** ** C17: spaces and models stay consistent *)

(** after any history without a failed forced drop: a model exists exactly if its space exists and
    lists it, and no name is listed twice *)
Theorem C17_models_match_spaces_partial : forall order hash verify,
  (forall l, Permutation (order l) l) ->
  forall key salt l sv, hist order hash verify key salt l sv ->
  Forall op_nd l -> Forall no_failed_drop l ->
  (forall space model,
    (exists x, aget ent_eqb (space, model) (n_models (w_ns (sv_w sv))) = Some x) <->
    (exists s, aget bseq space (n_spaces (w_ns (sv_w sv))) = Some s /\ In model (sp_models s))) /\
  NoDup (akeys (n_spaces (w_ns (sv_w sv)))) /\ NoDup (akeys (n_models (w_ns (sv_w sv)))) /\
  (forall space s, aget bseq space (n_spaces (w_ns (sv_w sv))) = Some s -> NoDup (sp_models s)).
Proof.
  intros order hash verify OP key salt l sv H ND NF.
  destruct (hist_inv _ _ _ OP _ _ _ _ H ND NF) as [[W L _] _]. split; [exact L|].
  split; [apply W|]. split; [apply W|]. intros sp s E. apply (wf_space _ W _ _ E).
Qed.
Print Assumptions C17_models_match_spaces_partial.

(** every model keeps distinct field names and a primary key field of an indexable type *)
Theorem C17_models_well_formed_partial : forall order hash verify,
  (forall l, Permutation (order l) l) ->
  forall key salt l sv, hist order hash verify key salt l sv ->
  Forall op_nd l -> Forall no_failed_drop l ->
  forall id m, aget ent_eqb id (n_models (w_ns (sv_w sv))) = Some m ->
  NoDup (map fst (lo_fields (md_lay m))) /\
  exists f, aget bseq (lo_pk (md_lay m)) (lo_fields (md_lay m)) = Some f /\ f_layers f = [lo_ptag (md_lay m)] /\
    tsel_uniq (lo_ptag (md_lay m)) <> TuIllegal.
Proof.
  intros order hash verify OP key salt l sv H ND NF id m E.
  destruct (hist_inv _ _ _ OP _ _ _ _ H ND NF) as [[W L _] _].
  destruct (wf_model _ W _ _ E) as (A & _ & f & B & C & D). split; [exact A|].
  exists f. split; [exact B|]. split; [exact C|]. intros X. rewrite X in D. discriminate.
Qed.
Print Assumptions C17_models_well_formed_partial.

(** a space with models is not dropped without FORCE, in any state *)
Theorem C17_nonempty_space_kept : forall order hash se en w name ex s,
  se_root se = true -> aget bseq name (n_spaces (w_ns w)) = Some s -> sp_models s <> [] ->
  exec_stmt order hash se en w (SDropSpace name false ex) = (w, OErr ErrNotEmpty).
Proof.
  intros order hash se en w name ex s R E NE. unfold exec_stmt, exec_drop_space. rewrite R, E. cbn [negb].
  destruct (sp_models s); [contradiction|reflexivity].
Qed.
Print Assumptions C17_nonempty_space_kept.

(** an acknowledged drop removes the space and exactly its models *)
Theorem C17_drop_exact_partial : forall order hash verify,
  (forall l, Permutation (order l) l) ->
  forall key salt l sv, hist order hash verify key salt l sv ->
  Forall op_nd l -> Forall no_failed_drop l ->
  forall se en name force ex w' o,
  exec_stmt order hash se en (sv_w sv) (SDropSpace name force ex) = (w', o) -> o = OEmpty \/ o = OBool true ->
  aget bseq name (n_spaces (w_ns (sv_w sv))) <> None /\
  (forall k, aget bseq k (n_spaces (w_ns w')) = if bseq k name then None else aget bseq k (n_spaces (w_ns (sv_w sv)))) /\
  (forall k m, aget ent_eqb (k, m) (n_models (w_ns w')) =
     if bseq k name then None else aget ent_eqb (k, m) (n_models (w_ns (sv_w sv)))) /\
  n_users (w_ns w') = n_users (w_ns (sv_w sv)).
Proof.
  intros order hash verify OP key salt l sv H ND NF se en name force ex w' o E O.
  destruct (hist_inv _ _ _ OP _ _ _ _ H ND NF) as [[W L _] _]. revert E.
  set (w := sv_w sv) in *. clearbody w. unfold exec_stmt.
  destruct (negb (se_root se)); [intros E; inversion E; subst; destruct O; discriminate|].
  unfold exec_drop_space. destruct (aget bseq name (n_spaces (w_ns w))) as [s|] eqn:ES.
  2:{ intros E. inversion E; subst. destruct ex, O; discriminate. }
  destruct (wf_space _ W _ _ ES) as [SM _].
  assert (GD : forall k, aget bseq k (adel bseq name (n_spaces (w_ns w))) =
     if bseq k name then None else aget bseq k (n_spaces (w_ns w))).
  { intros k. destruct (bseq k name) eqn:EB.
    - apply bseq_eq in EB as ->. apply (aget_del_same bseq).
    - apply bseq_neq in EB. apply (aget_del_other bseq bseq_eq). exact EB. }
  assert (MD : forall k m, (if bseq k name && set_has m (sp_models s) then None else aget ent_eqb (k, m) (n_models (w_ns w)))
     = if bseq k name then None else aget ent_eqb (k, m) (n_models (w_ns w))).
  { intros k m. destruct (bseq k name) eqn:EB; cbn [andb]; [|reflexivity]. apply bseq_eq in EB as ->.
    destruct (set_has m (sp_models s)) eqn:EH; [reflexivity|].
    destruct (aget ent_eqb (name, m) (n_models (w_ns w))) as [x|] eqn:EM; [|reflexivity].
    destruct (proj1 (L name m)) as (s' & E1 & E2); [eauto|]. rewrite ES in E1. inversion E1; subst.
    apply set_has_in in E2. congruence. }
  destruct force.
  - destruct (driver_commit _ _ _) as [w1 [|]] eqn:EC; [|intros E; inversion E; subst; destruct O; discriminate].
    apply commit_true in EC as [EI ->]. cbn [w_ns with_ns set_spaces n_models].
    rewrite drop_models_ok; auto; [|intros m Hm; apply L; eauto].
    intros E. inversion E; subst; clear E. cbn [w_ns with_ns set_spaces set_models n_spaces n_models n_users].
    split; [discriminate|]. split; [exact GD|]. split; [|reflexivity].
    intros k m. rewrite del_models_get. cbn [fst snd]. apply MD.
  - destruct (sp_models s) as [|x xs] eqn:EM; [|intros E; inversion E; subst; destruct O; discriminate].
    destruct (driver_commit _ _ _) as [w1 [|]] eqn:EC; [|intros E; inversion E; subst; destruct O; discriminate].
    apply commit_true in EC as [EI ->]. intros E. inversion E; subst; clear E.
    cbn [w_ns with_ns set_spaces set_models n_spaces n_models n_users].
    split; [discriminate|]. split; [exact GD|]. split; [|reflexivity].
    intros k m. rewrite <- MD. cbn [set_has existsb]. rewrite andb_false_r. reflexivity.
Qed.
Print Assumptions C17_drop_exact_partial.

(** after a failed forced drop the models exist without their space *)
Theorem C17_failed_drop_refuted : exists l sv, gx_hist l sv /\ Forall op_nd l /\
  (exists x, aget ent_eqb (gx_s, gx_m) (n_models (w_ns (sv_w sv))) = Some x) /\
  aget bseq gx_s (n_spaces (w_ns (sv_w sv))) = None.
Proof.
  destruct (gx_run (firstn 3 gx_ops ++ [OpStmt 0 (gx_env 12 false) (SDropSpace gx_s true false)])) as [[l sv]|] eqn:E; [|vm_compute in E; discriminate].
  assert (H := gx_run_hist _ _ _ E). vm_compute in E. exists l, sv. split; [exact H|].
  inversion E; subst; clear E H. split; [apply op_nd_b_ok; vm_compute; reflexivity|].
  split; [eexists|]; vm_compute; reflexivity.
Qed.
Print Assumptions C17_failed_drop_refuted.

Example C17_example : exists l sv, gx_hist l sv /\ Forall op_nd l /\ Forall no_failed_drop l /\
  (exists s, aget bseq gx_s (n_spaces (w_ns (sv_w sv))) = Some s /\ sp_models s = [gx_m]) /\
  exists w', exec_stmt gx_order gx_hash (mk_session ROOT true) (gx_env 60 true) (sv_w sv) (SDropSpace gx_s true false) = (w', OEmpty).
Proof.
  destruct (gx_run gx_ops) as [[l sv]|] eqn:E; [|vm_compute in E; discriminate].
  assert (H := gx_run_hist _ _ _ E). vm_compute in E. exists l, sv. split; [exact H|].
  inversion E; subst; clear E H. split; [apply op_nd_b_ok; vm_compute; reflexivity|].
  split; [apply nfd_b_ok; vm_compute; reflexivity|].
  split; [eexists; split; vm_compute; reflexivity|]. eexists. vm_compute. reflexivity.
Qed.

(** ** C54: an administrative statement never crashes *)

Theorem C54_no_crash_partial : forall order hash verify,
  (forall l, Permutation (order l) l) ->
  forall key salt l sv, hist order hash verify key salt l sv ->
  Forall op_nd l -> Forall no_failed_drop l ->
  forall se en s w' o, stmt_nd s -> ~ null_nullable s ->
  exec_stmt order hash se en (sv_w sv) s = (w', o) -> o <> OPanic.
Proof.
  intros order hash verify OP key salt l sv H ND NF se en s w' o SN NN E ->.
  destruct (hist_inv _ _ _ OP _ _ _ _ H ND NF) as [[W L _] _].
  apply (exec_good order hash OP) in E as [(F & _)|[_ [_ F]]]; auto.
  destruct s; cbn in F; try contradiction. destruct force; [discriminate|contradiction].
Qed.
Print Assumptions C54_no_crash_partial.

(** [nullable: null] in ALTER MODEL *)
Theorem C54_nullable_null_refuted : exists l sv, gx_hist l sv /\ Forall op_nd l /\ Forall no_failed_drop l /\
  snd (exec_stmt gx_order gx_hash (mk_session ROOT true) (gx_env 60 true) (sv_w sv)
    (SAlterModel (gx_s, gx_m) (AkAdd [mk_ef (bstr "x"%string) [gx_layer "string"%string] [(bstr "nullable"%string, DData CNull)]]))) = OPanic.
Proof.
  destruct (gx_run gx_ops) as [[l sv]|] eqn:E; [|vm_compute in E; discriminate].
  assert (H := gx_run_hist _ _ _ E). vm_compute in E. exists l, sv. split; [exact H|].
  inversion E; subst; clear E H. split; [apply op_nd_b_ok; vm_compute; reflexivity|].
  split; [apply nfd_b_ok; vm_compute; reflexivity|]. vm_compute. reflexivity.
Qed.
Print Assumptions C54_nullable_null_refuted.

(** ALTER MODEL on a model whose space was lost in a failed forced drop *)
Theorem C54_orphan_model_refuted : exists l sv, gx_hist l sv /\ Forall op_nd l /\
  ~ null_nullable (SAlterModel (gx_s, gx_m) (AkRemove [bstr "name"%string])) /\
  snd (exec_stmt gx_order gx_hash (mk_session ROOT true) (gx_env 60 true) (sv_w sv)
    (SAlterModel (gx_s, gx_m) (AkRemove [bstr "name"%string]))) = OPanic.
Proof.
  destruct (gx_run (firstn 3 gx_ops ++ [OpStmt 0 (gx_env 12 false) (SDropSpace gx_s true false)])) as [[l sv]|] eqn:E; [|vm_compute in E; discriminate].
  assert (H := gx_run_hist _ _ _ E). vm_compute in E. exists l, sv. split; [exact H|].
  inversion E; subst; clear E H. split; [apply op_nd_b_ok; vm_compute; reflexivity|].
  split; [intros []|]. vm_compute. reflexivity.
Qed.
Print Assumptions C54_orphan_model_refuted.

Example C54_example : exists l sv, gx_hist l sv /\ Forall op_nd l /\ Forall no_failed_drop l /\
  ~ null_nullable (SAlterModel (gx_s, gx_m) (AkAdd [mk_ef (bstr "x"%string) [gx_layer "string"%string] []])) /\
  snd (exec_stmt gx_order gx_hash (mk_session ROOT true) (gx_env 60 true) (sv_w sv)
    (SAlterModel (gx_s, gx_m) (AkAdd [mk_ef (bstr "x"%string) [gx_layer "string"%string] []]))) = OEmpty.
Proof.
  destruct (gx_run gx_ops) as [[l sv]|] eqn:E; [|vm_compute in E; discriminate].
  assert (H := gx_run_hist _ _ _ E). vm_compute in E. exists l, sv. split; [exact H|].
  inversion E; subst; clear E H. split; [apply op_nd_b_ok; vm_compute; reflexivity|].
  split; [apply nfd_b_ok; vm_compute; reflexivity|]. split; [|vm_compute; reflexivity].
  intros (x & [<-|[]] & X). discriminate.
Qed.

(** the hypotheses of C12_on_disk_partial can be met *)
Definition gx_disk_ops : list op :=
  [OpLogin ROOT gx_pw;
   OpStmt 0 (gx_env 16 true) (SCreateUser (bstr "ana"%string) (gx_pass "pw1"));
   OpStmt 0 (gx_env 11 true) (SCreateSpace gx_s [] false);
   OpStmt 0 (gx_env 18 true) (SDropUser (bstr "ana"%string))].
Example C12_on_disk_example : exists l sv, gx_hist l sv /\
  Forall op_nd l /\ Forall no_failed_drop l /\ Forall no_null_op l /\
  hdr_ok jx_build spec_gns jx_hdr /\ length (w_log (sv_w sv)) = 4%nat /\
  Forall (event_wf (fun _ => true)) (w_log (sv_w sv)) /\ life_size (map (map ev_rec) [w_log (sv_w sv)]) < two64.
Proof.
  destruct (gx_run gx_disk_ops) as [[l sv]|] eqn:E; [|vm_compute in E; discriminate].
  assert (H := gx_run_hist _ _ _ E). vm_compute in E. exists l, sv. split; [exact H|].
  inversion E; subst; clear E H. split; [apply op_nd_b_ok; vm_compute; reflexivity|].
  split; [apply nfd_b_ok; vm_compute; reflexivity|]. split; [apply nno_b_ok; vm_compute; reflexivity|].
  split; [apply C06_example|]. split; [reflexivity|]. cbn [sv_w w_log].
  split; [|apply N.ltb_lt; vm_compute; reflexivity].
  repeat (apply Forall_cons || apply Forall_nil); cbn [event_wf]; repeat split; try (apply N.ltb_lt; vm_compute; reflexivity).
  repeat (constructor; cbn [fst snd]; try (apply N.ltb_lt; vm_compute; reflexivity); try reflexivity; auto).
Qed.
