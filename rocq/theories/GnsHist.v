(** Histories of administrative operations: what every reachable server state satisfies. *)
From Coq Require Import Strings.String List NArith Lia Bool Permutation.
From Verif Require Import Bytes DataModel CodecModel CodecProofs GnsCodecModel AMap DictModel DictProofs TypeModel TypeProofs GnsModel GnsProofs.
Import ListNotations.
Open Scope N_scope.

(** ** Relation lemmas for a restarted namespace *)

Lemma rel_keys l l' : Forall2 srel l l' -> akeys l = akeys l'.
Proof.
  unfold akeys. induction 1 as [|a b l l' H HF IH]; [reflexivity|]. cbn [map]. rewrite IH.
  destruct H as [-> _]. reflexivity.
Qed.

Lemma rel_get_rl n n' k s' : ns_rel n n' -> aget bseq k (n_spaces n') = Some s' ->
  exists s, aget bseq k (n_spaces n) = Some s /\ sp_uuid s = sp_uuid s' /\ sp_models s = sp_models s' /\
    prel (sp_props s) (sp_props s').
Proof.
  intros (HS & _) E. pose proof (srel_get _ _ k HS) as X. rewrite E in X.
  destruct (aget bseq k (n_spaces n)) as [s|]; [|contradiction]. exists s. destruct X as (_ & X). auto.
Qed.
Lemma rel_get_lr n n' k s : ns_rel n n' -> aget bseq k (n_spaces n) = Some s ->
  exists s', aget bseq k (n_spaces n') = Some s' /\ sp_uuid s = sp_uuid s' /\ sp_models s = sp_models s' /\
    prel (sp_props s) (sp_props s').
Proof.
  intros (HS & _) E. pose proof (srel_get _ _ k HS) as X. rewrite E in X.
  destruct (aget bseq k (n_spaces n')) as [s'|]; [|contradiction]. exists s'. destruct X as (_ & X). auto.
Qed.

Lemma rel_wf n n' : ns_rel n n' -> ns_wf n -> ns_wf n'.
Proof.
  intros R W. destruct (R) as (HS & HM & HU). constructor.
  - rewrite <- (rel_keys _ _ HS). apply W.
  - rewrite <- HM. apply W.
  - rewrite <- HU. apply W.
  - intros k s' E. destruct (rel_get_rl _ _ _ _ R E) as (s & E1 & _ & E2 & E3).
    destruct (wf_space _ W _ _ E1) as [W1 W2]. rewrite <- E2. split; auto.
    destruct E3 as [<- | ->]; auto. left. reflexivity.
  - rewrite <- HM. apply W.
Qed.
Lemma rel_link n n' : ns_rel n n' -> ns_link n -> ns_link n'.
Proof.
  intros R L sp m. destruct (R) as (HS & HM & HU). rewrite <- HM, (L sp m). split.
  - intros (s & E & I). destruct (rel_get_lr _ _ _ _ R E) as (s' & E1 & _ & E2 & _). exists s'. rewrite <- E2. auto.
  - intros (s & E & I). destruct (rel_get_rl _ _ _ _ R E) as (s' & E1 & _ & E2 & _). exists s'. rewrite E2. auto.
Qed.

(** ** The users a log describes *)
Definition users_event (u : list (bytes * bytes)) (e : gns_event) : list (bytes * bytes) :=
  match e with
  | EvCreateUser name h | EvAlterUser name h => aput bseq name h u
  | EvDropUser name => adel bseq name u
  | _ => u
  end.

Lemma with_space_users n sid f n' : with_space n sid f = Some n' ->
  (forall s r, f s = Some r -> n_users r = n_users n) -> n_users n' = n_users n.
Proof.
  unfold with_space. destruct (aget _ _ _) as [s|]; [|discriminate]. destruct (_ =? _); [|discriminate].
  intros H HF. eapply HF; eauto.
Qed.
Lemma with_model_users n mid f n' : with_model_mut n mid f = Some n' -> n_users n' = n_users n.
Proof.
  unfold with_model_mut. intros H. eapply with_space_users; [exact H|]. intros s r. cbv beta zeta.
  destruct (aget _ _ _) as [m|]; [|discriminate]. destruct (_ =? _); [|discriminate].
  destruct (f m); [|discriminate]. intros X. inversion X. reflexivity.
Qed.

Lemma apply_users n e n' : apply_event n e = Some n' -> n_users n' = users_event (n_users n) e.
Proof.
  destruct e as [name sp|sid p|sid|sid name lay|mid fs|mid ks|mid fs|mid|name h|name h|name];
    cbn [apply_event users_event]; intros H.
  - destruct (aget _ _ _); inversion H. reflexivity.
  - destruct (aget _ _ _); [|discriminate]. destruct (merge_metadata _ _) as [[d|]|]; inversion H. reflexivity.
  - destruct (aget _ _ _); [|discriminate]. destruct (_ =? _); inversion H. reflexivity.
  - destruct (aget _ _ _); [|discriminate]. destruct (set_has _ _); [discriminate|].
    destruct (aget _ _ _); inversion H. reflexivity.
  - eapply with_model_users; eauto.
  - eapply with_model_users; eauto.
  - eapply with_model_users; eauto.
  - eapply with_space_users; [exact H|]. intros s r. cbv beta zeta. destruct (negb _); [discriminate|].
    destruct (aget _ _ _); [|discriminate]. destruct (_ =? _); [|discriminate]. intros X. inversion X. reflexivity.
  - destruct (aget _ _ _); inversion H. reflexivity.
  - destruct (aget _ _ _); inversion H. reflexivity.
  - destruct (aget _ _ _); inversion H. reflexivity.
Qed.
Lemma replay_users l : forall n n', replay n l = Some n' -> n_users n' = fold_left users_event l (n_users n).
Proof.
  induction l as [|e l IH]; cbn [replay fold_left]; intros n n' H; [inversion H; reflexivity|].
  destruct (apply_event n e) as [n1|] eqn:E; [|discriminate]. rewrite <- (apply_users _ _ _ E). auto.
Qed.

Section Hist.
Variable order : fieldmap -> fieldmap.
Variable hash : bytes -> N -> bytes.
Variable verify : bytes -> bytes -> bool.

Notation exec_stmt := (exec_stmt order hash).
Notation step := (step order hash verify).
Notation boot := (boot hash verify).
Notation start := (start hash).

(** a history: the operations performed on a new installation with the answers given, and the server
    reached *)
Inductive hist (key : bytes) (salt : N) : list (op * op_out) -> server -> Prop :=
| h_nil : hist key salt [] (start key salt)
| h_snoc l sv o sv' out : hist key salt l sv -> step sv o = Some (sv', out) ->
    hist key salt (l ++ [(o, out)]) sv'.

(** ** Failures change nothing, in any state whatsoever *)

Ltac done_same := let H := fresh in intros H; inversion H; subst; auto; fail.

Lemma exec_error se en w s w' e : exec_stmt se en w s = (w', OErr e) ->
  (w_ns w' = w_ns w /\ w_log w' = w_log w) \/
  exists name ex, s = SDropSpace name true ex /\ e = ErrServer.
Proof.
  assert (CE : forall c ev w1 b, driver_commit c ev w = (w1, b) -> b = false -> w_ns w1 = w_ns w /\ w_log w1 = w_log w).
  { intros c ev w1 b H ->. eapply commit_false; eauto. }
  unfold GnsModel.exec_stmt.
  destruct s as [name props nx|name props|name f exs|id fs props nx|id k|id f exs|name opts|name opts|name|];
    try (destruct (negb (se_root se)); [done_same|]).
  - unfold exec_create_space. destruct (create_space_props _); [|done_same].
    destruct (aget _ _ _); [destruct nx; done_same|]. destruct (negb _); [done_same|].
    destruct (driver_commit _ _ _) as [w1 [|]] eqn:EC; [destruct nx; intros H; discriminate|].
    intros H. inversion H; subst. left. eapply CE; eauto.
  - unfold exec_alter_space. destruct (aget _ _ _) as [s|]; [|done_same].
    assert (GO : forall w' e,
      match prepare_patch (sp_props s) props with
      | None => (w, OErr ErrProps)
      | Some patch =>
          let '(w1, ok) := driver_commit (e_commit en) (EvAlterSpace (mk_sid (sp_uuid s) name) patch) w in
          if ok then
            match merge (sp_props s) patch with
            | None => (w1, OPanic)
            | Some d =>
                let d' := match dget KEY_ENV d with Some _ => d | None => aput bseq KEY_ENV (DMap []) d end in
                (with_ns w1 (set_spaces (aput bseq name (mk_mspace (sp_uuid s) (sp_models s) d')
                                           (n_spaces (w_ns w1))) (w_ns w1)), OEmpty)
            end
          else (w1, OErr ErrServer)
      end = (w', OErr e) -> w_ns w' = w_ns w /\ w_log w' = w_log w).
    { intros w2 e2. destruct (prepare_patch _ _); [|done_same].
      destruct (driver_commit _ _ _) as [w1 [|]] eqn:EC; [destruct (merge _ _); intros H; discriminate|].
      intros H. inversion H; subst. eapply CE; eauto. }
    destruct (dget KEY_ENV props) as [[c|m]|].
    + destruct (_ && _); [|done_same]. intros H. left. eapply GO; eauto.
    + destruct (Nat.eqb _ _); [|done_same]. intros H. left. eapply GO; eauto.
    + destruct props; done_same.
  - unfold exec_drop_space. destruct (aget _ _ _) as [s|]; [|destruct exs; done_same].
    destruct f.
    + destruct (driver_commit _ _ _) as [w1 [|]] eqn:EC.
      * destruct (drop_models _ _ _); [destruct exs|]; intros H; discriminate.
      * intros H. inversion H; subst. right. eauto.
    + destruct (sp_models s); [|done_same].
      destruct (driver_commit _ _ _) as [w1 [|]] eqn:EC; [destruct exs; intros H; discriminate|].
      intros H. inversion H; subst. left. eapply CE; eauto.
  - unfold exec_create_model. destruct (process_create_model _ _ _); [done_same|].
    destruct (aget _ _ _) as [s|]; [|done_same]. destruct (set_has _ _); [destruct nx; done_same|].
    destruct (negb _); [done_same|].
    destruct (driver_commit _ _ _) as [w1 [|]] eqn:EC; [destruct nx; intros H; discriminate|].
    intros H. inversion H; subst. left. eapply CE; eauto.
  - unfold exec_alter_model. destruct (aget _ _ _) as [m|]; [|done_same].
    destruct (aget _ _ _) as [s|]; [|done_same]. destruct (fdeltas _ _ _) as [[e1|[nl a]]|]; try done_same.
    destruct (negb nl); [done_same|].
    destruct a as [|fs|fs|ks]; [done_same| | |];
      (destruct (driver_commit _ _ _) as [w1 [|]] eqn:EC; [intros H; discriminate|];
       intros H; inversion H; subst; left; eapply CE; eauto).
  - unfold exec_drop_model. destruct (aget _ _ _) as [s|]; [|done_same].
    destruct (negb _); [destruct exs; done_same|]. destruct (aget _ _ _) as [m|]; [|done_same].
    destruct (_ && _); [done_same|].
    destruct (driver_commit _ _ _) as [w1 [|]] eqn:EC; [destruct exs; intros H; discriminate|].
    intros H. inversion H; subst. left. eapply CE; eauto.
  - unfold exec_create_user. destruct (user_password _); [|done_same]. destruct (aget _ _ _); [done_same|].
    destruct (driver_commit _ _ _) as [w1 [|]] eqn:EC; [intros H; discriminate|].
    intros H. inversion H; subst. left. eapply CE; eauto.
  - destruct (se_root se); [done_same|]. unfold exec_alter_user. destruct (user_password _); [|done_same].
    destruct (aget _ _ _); [|done_same].
    destruct (driver_commit _ _ _) as [w1 [|]] eqn:EC; [intros H; discriminate|].
    intros H. inversion H; subst. left. eapply CE; eauto.
  - destruct (bseq _ _); [done_same|]. unfold exec_drop_user. destruct (aget _ _ _); [|done_same].
    destruct (driver_commit _ _ _) as [w1 [|]] eqn:EC; [intros H; discriminate|].
    intros H. inversion H; subst. left. eapply CE; eauto.
  - destruct (w_iffy w); intros H; inversion H; subst; auto.
Qed.

(** ** What a statement does to the users *)

Inductive user_change (se : session) (s : stmt) (w w' : world) (o : outcome) : Prop :=
| uc_none : n_users (w_ns w') = n_users (w_ns w) ->
    fold_left users_event (w_log w') [] = fold_left users_event (w_log w) [] ->
    (o = OEmpty -> match s with SCreateUser _ _ | SDropUser _ => False | _ => True end) -> user_change se s w w' o
| uc_create name opts p salt : s = SCreateUser name opts -> user_password opts = Some p -> o = OEmpty ->
    aget bseq name (n_users (w_ns w)) = None ->
    n_users (w_ns w') = aput bseq name (hash p salt) (n_users (w_ns w)) ->
    w_log w' = w_log w ++ [EvCreateUser name (hash p salt)] -> user_change se s w w' o
| uc_drop name : s = SDropUser name -> o = OEmpty -> name <> se_user se ->
    n_users (w_ns w') = adel bseq name (n_users (w_ns w)) ->
    w_log w' = w_log w ++ [EvDropUser name] -> user_change se s w w' o.

Lemma commit_users c e w w1 b : driver_commit c e w = (w1, b) -> n_users (w_ns w1) = n_users (w_ns w) /\
  ((forall u, users_event u e = u) ->
  fold_left users_event (w_log w1) [] = fold_left users_event (w_log w) []).
Proof.
  unfold driver_commit. destruct (w_iffy w), c; intros H; inversion H; cbn [w_ns w_log]; split; auto.
  intros HE. rewrite fold_left_app. cbn [fold_left]. apply HE.
Qed.

Lemma uc_same se s w o : match s with SCreateUser _ _ | SDropUser _ => o <> OEmpty | _ => True end ->
  user_change se s w w o.
Proof. intros H. apply uc_none; auto. intros ->. destruct s; auto. Qed.

Ltac uc := let H := fresh in intros H; inversion H; subst; apply uc_same; cbn; auto; discriminate.

Lemma exec_users se en w s w' o : exec_stmt se en w s = (w', o) -> user_change se s w w' o.
Proof.
  unfold GnsModel.exec_stmt. destruct (se_root se) eqn:ROOT_SE; cbn [negb].
  2:{ destruct s; uc. }
  destruct s as [name props nx|name props|name f exs|id fs props nx|id k|id f exs|name opts|name opts|name|].
  - unfold exec_create_space. destruct (create_space_props _); [|uc].
    destruct (aget _ _ _); [destruct nx; uc|]. destruct (negb _); [uc|].
    destruct (driver_commit _ _ _) as [w1 [|]] eqn:EC; apply commit_users in EC as [EC1 EC2];
      intros H; inversion H; subst; apply uc_none; cbn; auto.
  - unfold exec_alter_space. destruct (aget _ _ _) as [s|]; [|uc].
    assert (GO : forall w' o,
      match prepare_patch (sp_props s) props with
      | None => (w, OErr ErrProps)
      | Some patch =>
          let '(w1, ok) := driver_commit (e_commit en) (EvAlterSpace (mk_sid (sp_uuid s) name) patch) w in
          if ok then
            match merge (sp_props s) patch with
            | None => (w1, OPanic)
            | Some d =>
                let d' := match dget KEY_ENV d with Some _ => d | None => aput bseq KEY_ENV (DMap []) d end in
                (with_ns w1 (set_spaces (aput bseq name (mk_mspace (sp_uuid s) (sp_models s) d')
                                           (n_spaces (w_ns w1))) (w_ns w1)), OEmpty)
            end
          else (w1, OErr ErrServer)
      end = (w', o) -> user_change se (SAlterSpace name props) w w' o).
    { intros w2 o2. destruct (prepare_patch _ _); [|uc].
      destruct (driver_commit _ _ _) as [w1 [|]] eqn:EC; apply commit_users in EC as [EC1 EC2].
      - destruct (merge _ _); intros H; inversion H; subst; apply uc_none; cbn; auto.
      - intros H; inversion H; subst; apply uc_none; cbn; auto. }
    destruct (dget KEY_ENV props) as [[c|m]|].
    + destruct (_ && _); [apply GO|uc].
    + destruct (Nat.eqb _ _); [apply GO|uc].
    + destruct props; uc.
  - unfold exec_drop_space. destruct (aget _ _ _) as [s|]; [|destruct exs; uc].
    destruct f.
    + destruct (driver_commit _ _ _) as [w1 [|]] eqn:EC; apply commit_users in EC as [EC1 EC2].
      * destruct (drop_models _ _ _); intros H; inversion H; subst; apply uc_none; cbn; auto.
      * intros H; inversion H; subst; apply uc_none; cbn; auto.
    + destruct (sp_models s); [|uc].
      destruct (driver_commit _ _ _) as [w1 [|]] eqn:EC; apply commit_users in EC as [EC1 EC2];
      intros H; inversion H; subst; apply uc_none; cbn; auto.
  - unfold exec_create_model. destruct (process_create_model _ _ _); [uc|].
    destruct (aget _ _ _) as [s|]; [|uc]. destruct (set_has _ _); [destruct nx; uc|].
    destruct (negb _); [uc|].
    destruct (driver_commit _ _ _) as [w1 [|]] eqn:EC; apply commit_users in EC as [EC1 EC2];
      intros H; inversion H; subst; apply uc_none; cbn; auto.
  - unfold exec_alter_model. destruct (aget _ _ _) as [m|]; [|uc].
    destruct (aget _ _ _) as [s|]; [|uc]. destruct (fdeltas _ _ _) as [[e1|[nl a]]|]; try uc.
    destruct (negb nl); [uc|].
    destruct a as [|fs|fs|ks]; [uc| | |];
      (destruct (driver_commit _ _ _) as [w1 [|]] eqn:EC; apply commit_users in EC as [EC1 EC2];
       intros H; inversion H; subst; apply uc_none; cbn; auto).
  - unfold exec_drop_model. destruct (aget _ _ _) as [s|]; [|uc].
    destruct (negb _); [destruct exs; uc|]. destruct (aget _ _ _) as [m|]; [|uc].
    destruct (_ && _); [uc|].
    destruct (driver_commit _ _ _) as [w1 [|]] eqn:EC; apply commit_users in EC as [EC1 EC2];
      intros H; inversion H; subst; apply uc_none; cbn; auto.
  - unfold exec_create_user. destruct (user_password _) as [p|] eqn:EP; [|uc].
    destruct (aget _ _ _) eqn:EG; [uc|].
    destruct (driver_commit _ _ _) as [w1 [|]] eqn:EC.
    + apply commit_true in EC as [EI ->]. intros H; inversion H; subst. eapply (uc_create _ _ _ _ _ name opts p (e_salt en)); auto.
    + apply commit_false in EC as [E1 E2]. intros H; inversion H; subst.
      apply uc_none; [congruence|congruence|discriminate].
  - uc.
  - destruct (bseq (se_user se) name) eqn:EB; [uc|]. unfold exec_drop_user. destruct (aget _ _ _) eqn:EG; [|uc].
    destruct (driver_commit _ _ _) as [w1 [|]] eqn:EC.
    + apply commit_true in EC as [EI ->]. intros H; inversion H; subst. apply (uc_drop _ _ _ _ _ name); auto.
      apply bseq_neq in EB. congruence.
    + apply commit_false in EC as [E1 E2]. intros H; inversion H; subst.
      apply uc_none; [congruence|congruence|discriminate].
  - destruct (w_iffy w); uc.
Qed.

(** ** Users and sessions, in every history *)

Lemma hist_ind_step (key : bytes) (salt : N) (P : list (op * op_out) -> server -> Prop) :
  P [] (start key salt) ->
  (forall l sv o sv' out, hist key salt l sv -> P l sv -> step sv o = Some (sv', out) -> P (l ++ [(o, out)]) sv') ->
  forall l sv, hist key salt l sv -> P l sv.
Proof. intros H0 HS l sv H. induction H; eauto. Qed.

(** the log describes the users in memory *)
Definition users_logged (w : world) : Prop := fold_left users_event (w_log w) [] = n_users (w_ns w).

Lemma boot_cases key salt log w : boot key salt log = Some w ->
  exists n, replay ns_empty log = Some n /\
    ((w = mk_world n log false /\ (aget bseq ROOT (n_users n) = None \/
        exists h, aget bseq ROOT (n_users n) = Some h /\ key <> [] /\ verify key h = true)) \/
     exists h0, aget bseq ROOT (n_users n) = Some h0 /\ (key = [] \/ verify key h0 = false) /\
       w = mk_world (set_users (aput bseq ROOT (hash key salt) (n_users n)) n)
             (log ++ [EvAlterUser ROOT (hash key salt)]) false).
Proof.
  unfold GnsModel.boot, verify_user. destruct (replay ns_empty log) as [n|]; [|discriminate]. intros H. exists n. split; [reflexivity|].
  destruct (aget bseq ROOT (n_users n)) as [h|] eqn:E.
  - destruct key as [|x key].
    + inversion H; subst. right. exists h. auto.
    + destruct (verify (x :: key) h) eqn:EV.
      * change (bseq ROOT ROOT) with true in H. inversion H; subst. left. split; auto. right. exists h. split; auto. split; [discriminate|auto].
      * inversion H; subst. right. exists h. auto.
  - inversion H; subst. left. auto.
Qed.

Lemma step_users sv o sv' out : users_logged (sv_w sv) -> step sv o = Some (sv', out) -> users_logged (sv_w sv').
Proof.
  unfold users_logged. intros HU H. destruct o as [u p|i en s| |key salt]; cbn [GnsModel.step] in H.
  - destruct (login _ _ _ _); inversion H; subst; exact HU.
  - destruct (nth_error _ i) as [se|]; [|inversion H; subst; exact HU].
    destruct (exec_stmt se en (sv_w sv) s) as [w o] eqn:E. inversion H; subst. cbn [sv_w].
    apply exec_users in E as [E1 E2 _|name opts p salt -> _ _ _ E1 E2|name -> _ _ E1 E2].
    + congruence.
    + rewrite E1, E2, fold_left_app, HU. reflexivity.
    + rewrite E1, E2, fold_left_app, HU. reflexivity.
  - inversion H; subst. exact HU.
  - destruct (boot key salt (w_log (sv_w sv))) as [w|] eqn:E; [|discriminate]. inversion H; subst. cbn [sv_w].
    apply boot_cases in E as (n & ER & [(-> & _)|(h0 & _ & _ & ->)]); cbn [w_log w_ns].
    + rewrite (replay_users _ _ _ ER). reflexivity.
    + rewrite fold_left_app, (replay_users _ _ _ ER). reflexivity.
Qed.

Lemma hist_users_logged key salt l sv : hist key salt l sv -> users_logged (sv_w sv).
Proof.
  revert l sv. apply hist_ind_step.
  - reflexivity.
  - intros l sv o sv' out _ HU H. eapply step_users; eauto.
Qed.

(** sessions know whether they are root; root exists *)
Definition sess_ok (sv : server) : Prop :=
  Forall (fun se => se_root se = true <-> se_user se = ROOT) (sv_sess sv).
Definition root_ok (sv : server) : Prop := exists h, aget bseq ROOT (n_users (w_ns (sv_w sv))) = Some h.

Lemma step_sess sv o sv' out : sess_ok sv -> step sv o = Some (sv', out) -> sess_ok sv'.
Proof.
  unfold sess_ok. intros HS H. destruct o as [u p|i en s| |key salt]; cbn [GnsModel.step] in H.
  - destruct (login verify (w_ns (sv_w sv)) u p) as [se|] eqn:E; inversion H; subst; cbn [sv_sess]; [|exact HS].
    apply Forall_app. split; [exact HS|]. constructor; [|constructor].
    unfold login, verify_user in E. destruct (aget _ _ _); [|discriminate]. destruct p; [discriminate|].
    destruct (verify _ _); [|discriminate]. destruct (bseq u ROOT) eqn:EB; inversion E; subst; cbn [se_root se_user].
    + apply bseq_eq in EB. tauto.
    + apply bseq_neq in EB. split; [discriminate|contradiction].
  - destruct (nth_error _ i) as [se|]; [|inversion H; subst; exact HS].
    destruct (exec_stmt se en (sv_w sv) s) as [w o] eqn:E. inversion H; subst. exact HS.
  - inversion H; subst. exact HS.
  - destruct (boot key salt (w_log (sv_w sv))) as [w|] eqn:E; [|discriminate]. inversion H; subst. constructor.
Qed.

Lemma exec_nonroot se en w s : se_root se = false -> s <> SReportStatus ->
  exec_stmt se en w s = (w, OErr ErrPermission).
Proof. intros H HS. unfold GnsModel.exec_stmt. rewrite H. destruct s; try reflexivity. contradiction. Qed.

Lemma step_root sv o sv' out : sess_ok sv -> users_logged (sv_w sv) -> root_ok sv ->
  step sv o = Some (sv', out) -> root_ok sv'.
Proof.
  unfold root_ok. intros HS HL [h HR] H. destruct o as [u p|i en s| |key salt]; cbn [GnsModel.step] in H.
  - destruct (login _ _ _ _); inversion H; subst; eauto.
  - destruct (nth_error _ i) as [se|] eqn:EN; [|inversion H; subst; eauto].
    destruct (exec_stmt se en (sv_w sv) s) as [w o] eqn:E. inversion H; subst. cbn [sv_w].
    assert (SE : se_root se = true <-> se_user se = ROOT).
    { unfold sess_ok in HS. rewrite Forall_forall in HS. apply HS. eapply nth_error_In; eauto. }
    destruct (se_root se) eqn:ER.
    2:{ destruct s; try (rewrite exec_nonroot in E by (auto; discriminate); inversion E; subst; eauto).
        cbn in E. destruct (w_iffy (sv_w sv)); inversion E; subst; eauto. }
    apply exec_users in E as [E1 E2 _|name opts p salt -> _ _ EG E1 E2|name -> _ EN2 E1 E2].
    + rewrite E1. eauto.
    + rewrite E1. rewrite (aget_put_other bseq bseq_eq); [eauto|]. intros <-. congruence.
    + rewrite E1. rewrite (aget_del_other bseq bseq_eq); [eauto|]. intros <-. apply EN2. symmetry. apply SE. reflexivity.
  - inversion H; subst. eauto.
  - destruct (boot key salt (w_log (sv_w sv))) as [w|] eqn:E; [|discriminate]. inversion H; subst. cbn [sv_w].
    apply boot_cases in E as (n & ER & [(-> & _)|(h0 & _ & _ & ->)]); cbn [w_log w_ns].
    + rewrite (replay_users _ _ _ ER). cbn [ns_empty n_users]. unfold users_logged in HL. rewrite HL. eauto.
    + cbn [set_users n_users]. rewrite (aget_put_same bseq bseq_eq). eauto.
Qed.

Lemma hist_root key salt l sv : hist key salt l sv -> sess_ok sv /\ root_ok sv.
Proof.
  intros H. pose proof (hist_users_logged _ _ _ _ H). revert l sv H H0.
  intros l sv H. induction H as [|l sv o sv' out H IH HS]; intros HU.
  - split; [constructor|]. exists (hash key salt). reflexivity.
  - destruct (IH (hist_users_logged _ _ _ _ H)) as [I1 I2]. split.
    + eapply step_sess; eauto.
    + eapply step_root; eauto. eapply hist_users_logged; eauto.
Qed.

(** ** The replayed log, in histories without a failed forced drop *)
Hypothesis order_perm : forall l, Permutation (order l) l.

Definition op_nd (x : op * op_out) : Prop := match fst x with OpStmt _ _ s => stmt_nd s | _ => True end.
Definition no_failed_drop (x : op * op_out) : Prop :=
  match x with (OpStmt _ _ s, OutStmt o) => ~ failed_forced_drop s o | _ => True end.
Definition no_null_op (x : op * op_out) : Prop := match fst x with OpStmt _ _ s => no_env_null s | _ => True end.

Record inv (sv : server) : Prop := {
  inv_wf : ns_wf (w_ns (sv_w sv));
  inv_link : ns_link (w_ns (sv_w sv));
  inv_log : exists n', replay ns_empty (w_log (sv_w sv)) = Some n' /\ ns_rel (w_ns (sv_w sv)) n' }.
Definition inv_exact (sv : server) : Prop :=
  full (w_ns (sv_w sv)) /\ replay ns_empty (w_log (sv_w sv)) = Some (w_ns (sv_w sv)).

Lemma step_inv sv o sv' out : root_ok sv -> inv sv -> op_nd (o, out) -> no_failed_drop (o, out) ->
  step sv o = Some (sv', out) -> inv sv' /\ (inv_exact sv -> no_null_op (o, out) -> inv_exact sv').
Proof.
  intros [hr HR] [W L (n' & ER & RR)] ND NF H. destruct o as [u p|i en s| |key salt]; cbn [GnsModel.step] in H.
  - destruct (login _ _ _ _); inversion H; subst; (split; [constructor; cbn [sv_w]; eauto|auto]).
  - destruct (nth_error _ i) as [se|] eqn:EN; [|inversion H; subst; split; [constructor; eauto|auto]].
    destruct (exec_stmt se en (sv_w sv) s) as [w o] eqn:E. inversion H; subst. cbn [sv_w op_nd no_failed_drop no_null_op fst] in *.
    apply exec_good in E as [(E & _)|[E _]]; auto; [contradiction|].
    destruct E as [E1 E2|e na E1 EI EG EA ENR EX EW EL EF].
    + split; [constructor; cbn [sv_w]; rewrite ?E1, ?E2; eauto|].
      unfold inv_exact. cbn [sv_w]. rewrite E1, E2. auto.
    + split.
      * constructor; cbn [sv_w]; auto. rewrite E1, replay_app, ER. cbn [replay].
        destruct (apply_rel _ _ _ _ RR EG EA) as (na' & -> & R2). exists na'. split; [reflexivity|].
        eapply ns_rel_trans; eauto.
      * intros [F X] NN. split; cbn [sv_w]; auto.
        rewrite E1, replay_app, X. cbn [replay]. rewrite EA. f_equal. apply EX. split; auto.
  - inversion H; subst. cbn [sv_w]. split; [constructor; cbn [sv_w w_ns w_log]; eauto|auto].
  - destruct (boot key salt (w_log (sv_w sv))) as [w|] eqn:E; [|discriminate]. inversion H; subst.
    pose proof (rel_wf _ _ RR W) as W'. pose proof (rel_link _ _ RR L) as L'.
    apply boot_cases in E as (n & ER2 & [(-> & _)|(h0 & EU & _ & ->)]); rewrite ER in ER2; inversion ER2; subst n.
    + split.
      * constructor; cbn [sv_w w_ns w_log]; auto. exists n'. split; auto. apply ns_rel_refl.
      * intros [F X] _. split; cbn [sv_w w_ns w_log]; [|auto]. rewrite ER in X. inversion X; subst. auto.
    + assert (RX : replay ns_empty (w_log (sv_w sv) ++ [EvAlterUser ROOT (hash key salt)]) =
        Some (set_users (aput bseq ROOT (hash key salt) (n_users n')) n')).
      { rewrite replay_app, ER. cbn [replay apply_event]. rewrite EU. reflexivity. }
      split.
      * constructor; cbn [sv_w w_ns w_log].
        -- apply wf_users; auto. apply (nodup_put bseq bseq_eq). apply W'.
        -- apply link_users; auto.
        -- eexists. split; [exact RX|apply ns_rel_refl].
      * intros [F X] _. split; cbn [sv_w w_ns w_log]; [|exact RX]. rewrite ER in X. inversion X; subst. exact F.
Qed.

Lemma hist_inv key salt l sv : hist key salt l sv -> Forall op_nd l -> Forall no_failed_drop l ->
  inv sv /\ (Forall no_null_op l -> inv_exact sv).
Proof.
  intros H. induction H as [|l sv o sv' out H IH HS]; intros H1 H2.
  - assert (E : replay ns_empty (w_log (sv_w (start key salt))) = Some (w_ns (sv_w (start key salt)))) by reflexivity.
    split.
    + constructor.
      * apply wf_users; [apply ns_wf_empty|]. constructor; [intros []|constructor].
      * apply link_users, ns_link_empty.
      * eexists. split; [exact E|apply ns_rel_refl].
    + intros _. split; [|exact E]. intros k s X. discriminate.
  - apply Forall_app in H1 as [H1 H1']. apply Forall_app in H2 as [H2 H2'].
    inversion H1'; inversion H2'; subst. destruct (IH H1 H2) as [I1 I2].
    destruct (step_inv sv o sv' out) as [J1 J2]; auto.
    { eapply hist_root; eauto. }
    split; auto. intros H3. apply Forall_app in H3 as [H3 H3']. inversion H3'; subst. auto.
Qed.

(** ** Passwords *)

(** the password an account was last given, read off the history alone *)
Definition pw_upd (u : bytes) (cur : option bytes) (x : op * op_out) : option bytes :=
  match x with
  | (OpStmt _ _ (SCreateUser name opts), OutStmt OEmpty) =>
      if bseq u name then user_password opts else cur
  | (OpStmt _ _ (SAlterUser name opts), OutStmt OEmpty) =>
      if bseq u name then user_password opts else cur
  | (OpStmt _ _ (SDropUser name), OutStmt OEmpty) => if bseq u name then None else cur
  | (OpRestart key _, _) => if bseq u ROOT then Some key else cur
  | _ => cur
  end.
Definition last_pw (key : bytes) (l : list (op * op_out)) (u : bytes) : option bytes :=
  fold_left (pw_upd u) l (if bseq u ROOT then Some key else None).

Variable same : bytes -> bytes -> bool.
Hypothesis same_refl : forall p, same p p = true.
Hypothesis same_sym : forall p q, same p q = same q p.
Hypothesis same_trans : forall p q r, same p q = true -> same q r = true -> same p r = true.
Hypothesis verify_hash : forall p q s, verify p (hash q s) = same p q.

Definition pw_ok (stored pw : option bytes) : Prop :=
  match stored, pw with
  | None, None => True
  | Some h, Some p => exists q s, h = hash q s /\ same q p = true
  | _, _ => False
  end.


Lemma exec_not_alter se en w w' name opts : exec_stmt se en w (SAlterUser name opts) <> (w', OEmpty).
Proof.
  unfold GnsModel.exec_stmt. destruct (se_root se); discriminate.
Qed.

Lemma hist_pw key salt l sv : hist key salt l sv ->
  forall u, pw_ok (aget bseq u (n_users (w_ns (sv_w sv)))) (last_pw key l u).
Proof.
  intros H. induction H as [|l sv o sv' out H IH HS]; intros u.
  - unfold last_pw, GnsModel.start, boot_new. cbn [fold_left sv_w w_ns set_users n_users aget].
    destruct (bseq u ROOT); cbn; eauto.
  - specialize (IH u). unfold last_pw in *. rewrite fold_left_app. cbn [fold_left].
    set (cur := fold_left (pw_upd u) l _) in *. clearbody cur.
    destruct o as [u' p|i en s| |key' salt']; cbn [GnsModel.step] in HS.
    + destruct (login _ _ _ _); inversion HS; subst; exact IH.
    + destruct (nth_error _ i) as [se|] eqn:EN; [|inversion HS; subst; destruct s; exact IH].
      destruct (exec_stmt se en (sv_w sv) s) as [w r] eqn:E. inversion HS; subst. cbn [sv_w].
      pose proof (exec_not_alter se en (sv_w sv) w) as NA.
      pose proof (exec_users _ _ _ _ _ _ E) as [E1 E2 E3|name opts p salt' -> EP -> EG E1 E2|name -> -> EN2 E1 E2].
      * rewrite E1. destruct s; cbn [pw_upd]; auto; destruct r; auto; try (exfalso; apply E3; reflexivity).
        exfalso. eapply NA. exact E.
      * rewrite E1. cbn [pw_upd]. destruct (bseq u name) eqn:EB.
        -- apply bseq_eq in EB as ->. rewrite (aget_put_same bseq bseq_eq), EP. cbn. eauto.
        -- apply bseq_neq in EB. rewrite (aget_put_other bseq bseq_eq) by exact EB. exact IH.
      * rewrite E1. cbn [pw_upd]. destruct (bseq u name) eqn:EB.
        -- apply bseq_eq in EB as ->. rewrite (aget_del_same bseq). exact I.
        -- apply bseq_neq in EB. rewrite (aget_del_other bseq bseq_eq) by exact EB. exact IH.
    + inversion HS; subst. exact IH.
    + pose proof (hist_users_logged _ _ _ _ H) as HU. unfold users_logged in HU.
      destruct (hist_root _ _ _ _ H) as [_ [hr HR]].
      destruct (boot key' salt' (w_log (sv_w sv))) as [w|] eqn:E; [|discriminate]. inversion HS; subst. cbn [sv_w pw_upd].
      apply boot_cases in E as (n & ER & C). pose proof (replay_users _ _ _ ER) as EU. cbn [ns_empty n_users] in EU.
      rewrite HU in EU. destruct C as [(-> & C)|(h0 & C1 & C2 & ->)]; cbn [w_ns].
      * rewrite EU. destruct (bseq u ROOT) eqn:EB; [|exact IH]. apply bseq_eq in EB as ->.
        rewrite EU in C. destruct C as [C|(h & C1 & C2 & C3)]; [congruence|].
        rewrite C1 in IH |- *. destruct cur as [q|]; [|contradiction]. destruct IH as (q' & s & -> & S1).
        rewrite verify_hash in C3. cbn. exists q', s. split; auto. rewrite same_sym. auto.
      * cbn [set_users n_users]. destruct (bseq u ROOT) eqn:EB.
        -- apply bseq_eq in EB as ->. rewrite (aget_put_same bseq bseq_eq). cbn. eauto.
        -- apply bseq_neq in EB. rewrite (aget_put_other bseq bseq_eq) by exact EB. rewrite EU. exact IH.
Qed.

Lemma hist_login key salt l sv u p : hist key salt l sv ->
  ((exists se, login verify (w_ns (sv_w sv)) u p = Some se) <->
   p <> [] /\ exists q, last_pw key l u = Some q /\ same p q = true).
Proof.
  intros H. pose proof (hist_pw _ _ _ _ H u) as HP. unfold login, verify_user.
  destruct (aget bseq u (n_users (w_ns (sv_w sv)))) as [h|].
  - destruct (last_pw key l u) as [q|]; [|contradiction]. destruct HP as (q' & s & -> & S1).
    rewrite !verify_hash. split.
    + intros [se E]. destruct p as [|x p]; [discriminate|]. split; [discriminate|].
      exists q. split; [reflexivity|]. destruct (same (x :: p) q') eqn:ES; [|discriminate].
      eapply same_trans; eauto.
    + intros (NP & q0 & EQ & S2). inversion EQ; subst q0. destruct p as [|x p]; [contradiction|].
      assert (X : same (x :: p) q' = true).
      { apply (same_trans _ _ _ S2). rewrite same_sym. exact S1. }
      rewrite X. destruct (bseq u ROOT); eauto.
  - destruct (last_pw key l u); [contradiction|]. split; [intros [se E]; discriminate|].
    intros (_ & q & E & _). discriminate.
Qed.

(** computing a history *)
Fixpoint trace (sv : server) (ops : list op) : option (list (op * op_out) * server) :=
  match ops with
  | [] => Some ([], sv)
  | o :: ops' =>
      match step sv o with
      | None => None
      | Some (sv1, out) => match trace sv1 ops' with Some (l, sv2) => Some ((o, out) :: l, sv2) | None => None end
      end
  end.
Lemma trace_hist key salt ops : forall l0 sv l sv', hist key salt l0 sv -> trace sv ops = Some (l, sv') ->
  hist key salt (l0 ++ l) sv'.
Proof.
  induction ops as [|o ops IH]; intros l0 sv l sv' H E; cbn [trace] in E.
  - inversion E; subst. rewrite app_nil_r. exact H.
  - destruct (step sv o) as [[sv1 out]|] eqn:ES; [|discriminate].
    destruct (trace sv1 ops) as [[l1 sv2]|] eqn:ET; [|discriminate]. inversion E; subst.
    change ((o, out) :: l1) with ([(o, out)] ++ l1). rewrite app_assoc. eapply IH; [|exact ET].
    econstructor; eauto.
Qed.
Lemma trace_start key salt ops l sv : trace (start key salt) ops = Some (l, sv) -> hist key salt l sv.
Proof. intros H. apply (trace_hist key salt ops [] _ _ _ (h_nil key salt) H). Qed.

End Hist.
