(** Proofs about the whole server. *)
From Coq Require Import Strings.String List NArith Bool Arith Lia Permutation.
From Verif Require Import Bytes AMap DataModel CodecModel GnsCodecModel DictModel GnsModel GnsProofs GnsHist RowModel BatchModel UpgradeModel UpgradeSteps WholeModel WholeSpec.
Import ListNotations.
Local Open Scope N_scope.

(** ** What a statement does to the models *)
Definition suuid (n : ns) (k : bytes) : option N := match aget bseq k (n_spaces n) with Some s => Some (sp_uuid s) | None => None end.
Definition sdl (l : list gns_event) : sds := fold_left sds_event l [].

Lemma file_of_suuid n id : file_of n id =
  match suuid n (fst id), aget ent_eqb id (n_models n) with
  | Some u, Some m => Some (((fst id, u), (snd id, lo_uuid (md_lay m))), md_lay m)
  | _, _ => None
  end.
Proof. unfold file_of, suuid. destruct (aget bseq _ _); reflexivity. Qed.

Section Change.
Variable order : fieldmap -> fieldmap.
Variable hash : bytes -> N -> bytes.

(** the possible changes *)
Inductive change (en : env) (w w' : world) : stmt -> outcome -> Prop :=
| cg_none s o : n_models (w_ns w') = n_models (w_ns w) -> (forall k, suuid (w_ns w') k = suuid (w_ns w) k) ->
    sdl (w_log w') = sdl (w_log w) ->
    match s with
    | SCreateModel _ _ _ _ | SDropModel _ _ _ | SDropSpace _ _ _ => did o = false
    | SAlterModel id k => o = OEmpty -> exists m, aget ent_eqb id (n_models (w_ns w)) = Some m /\ fdeltas order m k = Some (inr (true, AaIgnore))
    | _ => True
    end -> change en w w' s o
| cg_space k p nx o : n_models (w_ns w') = n_models (w_ns w) ->
    (forall x, suuid (w_ns w') x = if bseq x k then Some (e_uuid en) else suuid (w_ns w) x) ->
    sdl (w_log w') = sdl (w_log w) -> suuid (w_ns w) k = None -> change en w w' (SCreateSpace k p nx) o
| cg_make id fs p nx o lay : did o = true -> process_create_model (e_uuid en) fs p = inr lay ->
    aget ent_eqb id (n_models (w_ns w)) = None -> suuid (w_ns w) (fst id) <> None -> e_init en = true ->
    n_models (w_ns w') = aput ent_eqb id (mk_mmodel lay 0) (n_models (w_ns w)) ->
    (forall k, suuid (w_ns w') k = suuid (w_ns w) k) ->
    sdl (w_log w') = aput ent_eqb id [] (sdl (w_log w)) -> change en w w' (SCreateModel id fs p nx) o
| cg_drop id f ex o m : did o = true -> aget ent_eqb id (n_models (w_ns w)) = Some m ->
    n_models (w_ns w') = adel ent_eqb id (n_models (w_ns w)) -> (forall k, suuid (w_ns w') k = suuid (w_ns w) k) ->
    sdl (w_log w') = sdl (w_log w) -> change en w w' (SDropModel id f ex) o
| cg_drop_space k f ex o : did o = true -> suuid (w_ns w) k <> None ->
    (forall id, aget ent_eqb id (n_models (w_ns w')) = if bseq k (fst id) then None else aget ent_eqb id (n_models (w_ns w))) ->
    (forall x, suuid (w_ns w') x = if bseq x k then None else suuid (w_ns w) x) ->
    sdl (w_log w') = sdl (w_log w) -> change en w w' (SDropSpace k f ex) o
| cg_alter id k m m' ds : aget ent_eqb id (n_models (w_ns w)) = Some m ->
    match fdeltas order m k with
    | Some (inr (true, AaAdd fs)) => m' = live_add fs m /\ ds = map (fun kv => SdAdd (fst kv)) fs
    | Some (inr (true, AaRemove ks)) => m' = live_rem ks m /\ ds = map SdRem ks
    | Some (inr (true, AaUpdate fs)) => m' = live_upd fs m /\ ds = []
    | _ => False
    end ->
    n_models (w_ns w') = aput ent_eqb id m' (n_models (w_ns w)) -> (forall k, suuid (w_ns w') k = suuid (w_ns w) k) ->
    (forall x, sds_get (sdl (w_log w')) x = sds_get (sdl (w_log w)) x ++ (if ent_eqb x id then ds else [])) ->
    change en w w' (SAlterModel id k) OEmpty.

Lemma sdl_snoc l e : sdl (l ++ [e]) = sds_event (sdl l) e.
Proof. unfold sdl. rewrite fold_left_app. reflexivity. Qed.

Lemma sds_put x id d v : sds_get (aput ent_eqb id v d) x = if ent_eqb x id then v else sds_get d x.
Proof.
  unfold sds_get. destruct (ent_eqb x id) eqn:E.
  - apply ent_eqb_eq in E as ->. rewrite (aget_put_same ent_eqb ent_eqb_eq). reflexivity.
  - rewrite (aget_put_other ent_eqb ent_eqb_eq); [reflexivity|]. intros ->. rewrite (eqb_r ent_eqb ent_eqb_eq) in E. discriminate E.
Qed.
Lemma suuid_put n k s x : suuid (set_spaces (aput bseq k s (n_spaces n)) n) x = if bseq x k then Some (sp_uuid s) else suuid n x.
Proof.
  unfold suuid. cbn [set_spaces n_spaces]. destruct (bseq x k) eqn:E.
  - apply bseq_eq in E as ->. rewrite (aget_put_same bseq bseq_eq). reflexivity.
  - apply bseq_neq in E. rewrite (aget_put_other bseq bseq_eq) by exact E. reflexivity.
Qed.
Lemma suuid_del n k x : suuid (set_spaces (adel bseq k (n_spaces n)) n) x = if bseq x k then None else suuid n x.
Proof.
  unfold suuid. cbn [set_spaces n_spaces]. destruct (bseq x k) eqn:E.
  - apply bseq_eq in E as ->. rewrite (aget_del_same bseq). reflexivity.
  - apply bseq_neq in E. rewrite (aget_del_other bseq bseq_eq) by exact E. reflexivity.
Qed.
Lemma suuid_put_same n k s s' x : aget bseq k (n_spaces n) = Some s -> sp_uuid s' = sp_uuid s ->
  suuid (set_spaces (aput bseq k s' (n_spaces n)) n) x = suuid n x.
Proof.
  intros G E. rewrite suuid_put. destruct (bseq x k) eqn:B; [|reflexivity]. apply bseq_eq in B as ->. unfold suuid. rewrite G, E. reflexivity.
Qed.
Lemma suuid_models m n x : suuid (set_models m n) x = suuid n x. Proof. reflexivity. Qed.
Lemma drop_models_get k names : forall ms ms', drop_models k names ms = Some ms' -> forall id,
  aget ent_eqb id ms' = if bseq k (fst id) && set_has (snd id) names then None else aget ent_eqb id ms.
Proof.
  induction names as [|m names IH]; intros ms ms' H id; [injection H as <-; rewrite andb_false_r; reflexivity|].
  cbn [drop_models] in H. destruct (aget ent_eqb (k, m) ms) eqn:G; [|discriminate H]. rewrite (IH _ _ H id).
  unfold set_has. cbn [existsb]. fold (set_has (snd id) names). destruct (bseq k (fst id)) eqn:E; [|cbn [andb]; apply (aget_del_other ent_eqb ent_eqb_eq)].
  - apply bseq_eq in E. cbn [andb]. destruct (bseq (snd id) m) eqn:E2.
    + apply bseq_eq in E2. cbn [orb]. destruct (set_has _ _); [reflexivity|].
      replace id with (k, m) by (destruct id; cbn in *; congruence). apply (aget_del_same ent_eqb).
    + cbn [orb]. destruct (set_has _ _); [reflexivity|]. apply (aget_del_other ent_eqb ent_eqb_eq). intros ->. cbn in E2. rewrite bseq_refl in E2. discriminate E2.
  - intros ->. cbn in E. rewrite bseq_refl in E. discriminate E.
Qed.
Lemma drop_models_ok k names : forall ms, NoDup names -> (forall m, In m names -> aget ent_eqb (k, m) ms <> None) -> drop_models k names ms <> None.
Proof.
  induction names as [|m names IH]; intros ms ND H; [discriminate|]. inversion ND; subst. cbn [drop_models].
  destruct (aget ent_eqb (k, m) ms) eqn:G; [|exfalso; eapply H; [left; reflexivity|exact G]].
  apply IH; [assumption|]. intros x X. rewrite (aget_del_other ent_eqb ent_eqb_eq); [apply H; right; exact X|]. congruence.
Qed.

Ltac same := let H := fresh in intros H; inversion H; subst; clear H; try (intros _); apply cg_none; auto; try (intros; discriminate); fail.

Lemma exec_change se en w s w' o : ns_wf (w_ns w) -> ns_link (w_ns w) -> exec_stmt order hash se en w s = (w', o) ->
  ~ failed_forced_drop s o -> change en w w' s o.
Proof.
  intros WF LK. unfold GnsModel.exec_stmt.
  assert (CF : forall c ev w1, driver_commit c ev w = (w1, false) -> w_ns w1 = w_ns w /\ w_log w1 = w_log w) by (intros; eapply commit_false; eauto).
  assert (SAME : forall w1, w_ns w1 = w_ns w -> w_log w1 = w_log w -> forall s o, match s with
    | SCreateModel _ _ _ _ | SDropModel _ _ _ | SDropSpace _ _ _ => did o = false
    | SAlterModel id k => o = OEmpty -> exists m, aget ent_eqb id (n_models (w_ns w)) = Some m /\ fdeltas order m k = Some (inr (true, AaIgnore))
    | _ => True end -> change en w w1 s o).
  { intros w1 E1 E2 s0 o0 M. apply cg_none; rewrite ?E1, ?E2; auto. }
  destruct s as [name props nx|name props|name f exs|id fs props nx|id k|id f exs|name opts|name opts|name|];
    try (destruct (negb (se_root se)); [same|]).
  - unfold exec_create_space. destruct (create_space_props _); [|same].
    destruct (aget _ _ _) eqn:G; [destruct nx; same|]. destruct (negb _); [same|].
    destruct (driver_commit _ _ _) as [w1 [|]] eqn:EC; intros H _; inversion H; subst; clear H.
    + apply commit_true in EC as [_ ->]. cbn [w_ns with_ns w_log]. apply cg_space; cbn [w_ns with_ns w_log].
      * reflexivity.
      * intros x. apply suuid_put.
      * rewrite sdl_snoc. reflexivity.
      * unfold suuid. rewrite G. reflexivity.
    + destruct (CF _ _ _ EC). apply SAME; auto.
  - unfold exec_alter_space. destruct (aget _ _ _) as [s|] eqn:G; [|same].
    assert (GO : forall w' o,
      match prepare_patch (sp_props s) props with
      | None => (w, OErr ErrProps)
      | Some patch =>
          let '(w1, ok) := driver_commit (e_commit en) (EvAlterSpace (mk_sid (sp_uuid s) name) patch) w in
          if ok then
            match merge (sp_props s) patch with
            | None => (w1, OPanic)
            | Some d =>
                let d' := match dget KEY_ENV d with Some _ => d | None => aput bseq KEY_ENV (DMap []) d end in
                (with_ns w1 (set_spaces (aput bseq name (mk_mspace (sp_uuid s) (sp_models s) d')
                                           (n_spaces (w_ns w1))) (w_ns w1)), OEmpty)
            end
          else (w1, OErr ErrServer)
      end = (w', o) -> change en w w' (SAlterSpace name props) o).
    { intros w2 o2. destruct (prepare_patch _ _); [|same].
      destruct (driver_commit _ _ _) as [w1 [|]] eqn:EC.
      - apply commit_true in EC as [_ ->]. destruct (merge _ _); intros H; inversion H; subst; clear H; try (intros _); apply cg_none; cbn [w_ns with_ns w_log]; auto.
        + intros x. eapply suuid_put_same; [exact G|reflexivity].
        + rewrite sdl_snoc. reflexivity.
        + rewrite sdl_snoc. reflexivity.
      - intros H; inversion H; subst. destruct (CF _ _ _ EC). apply SAME; auto. }
    destruct (dget KEY_ENV props) as [[c|m]|].
    + destruct (_ && _); [|same]. intros H _. eapply GO; eauto.
    + destruct (Nat.eqb _ _); [|same]. intros H _. eapply GO; eauto.
    + destruct props; same.
  - unfold exec_drop_space. destruct (aget _ _ _) as [s|] eqn:G; [|destruct exs; same].
    assert (SU : suuid (w_ns w) name <> None) by (unfold suuid; rewrite G; discriminate).
    destruct f.
    + cbv zeta. destruct (driver_commit _ _ _) as [w1 [|]] eqn:EC.
      * apply commit_true in EC as [_ ->]. cbn [w_ns with_ns w_log set_spaces n_models].
        destruct (drop_models _ _ _) as [ms|] eqn:D.
        -- intros H _; inversion H; subst; clear H. apply cg_drop_space; cbn [w_ns with_ns w_log set_models set_spaces n_models]; auto.
           ++ destruct exs; reflexivity.
           ++ intros id. rewrite (drop_models_get _ _ _ _ D). destruct (bseq name (fst id)) eqn:E; [|reflexivity]. cbn [andb].
              destruct (set_has (snd id) (sp_models s)) eqn:SH; [reflexivity|]. apply set_has_false in SH.
              destruct (aget ent_eqb id (n_models (w_ns w))) eqn:GM; [|reflexivity]. exfalso. apply SH.
              apply bseq_eq in E. destruct (proj1 (LK (fst id) (snd id))) as (s' & G' & I').
              { exists m. rewrite <- surjective_pairing. exact GM. }
              rewrite <- E, G in G'. injection G' as <-. exact I'.
           ++ intros x. unfold set_models. cbn. unfold suuid at 1. cbn. exact (suuid_del (w_ns w) name x).
           ++ rewrite sdl_snoc. reflexivity.
        -- exfalso. revert D. apply drop_models_ok; [apply (wf_space _ WF _ _ G)|]. intros m I.
           destruct (proj2 (LK name m)) as [x X]; [exists s; auto|]. congruence.
      * intros H NF. exfalso. apply NF. inversion H; subst. reflexivity.
    + destruct (sp_models s) eqn:SM; [|same].
      destruct (driver_commit _ _ _) as [w1 [|]] eqn:EC; intros H _; inversion H; subst; clear H.
      * apply commit_true in EC as [_ ->]. apply cg_drop_space; cbn [w_ns with_ns w_log set_spaces n_models]; auto.
        -- destruct exs; reflexivity.
        -- intros id. destruct (bseq name (fst id)) eqn:E; [|reflexivity]. apply bseq_eq in E.
           destruct (aget ent_eqb id (n_models (w_ns w))) eqn:GM; [|reflexivity]. exfalso.
           destruct (proj1 (LK (fst id) (snd id))) as (s' & G' & I'). { exists m. rewrite <- surjective_pairing. exact GM. }
           rewrite <- E, G in G'. injection G' as <-. rewrite SM in I'. destruct I'.
        -- intros x. exact (suuid_del (w_ns w) name x).
        -- rewrite sdl_snoc. reflexivity.
      * destruct (CF _ _ _ EC). apply SAME; auto.
  - unfold exec_create_model. destruct (process_create_model _ _ _) as [e|lay] eqn:PC; [same|].
    destruct (aget _ _ _) as [s|] eqn:G; [|same]. destruct (set_has _ _) eqn:SH; [destruct nx; same|].
    destruct (negb (e_init en)) eqn:EI; [same|]. apply negb_false_iff in EI.
    destruct (driver_commit _ _ _) as [w1 [|]] eqn:EC; intros H _; inversion H; subst; clear H.
    + apply commit_true in EC as [_ ->]. eapply cg_make; cbn [w_ns with_ns w_log set_spaces set_models n_models]; eauto.
      * destruct nx; reflexivity.
      * destruct (aget ent_eqb id (n_models (w_ns w))) eqn:GM; [|reflexivity]. exfalso. apply set_has_false in SH. apply SH.
        destruct (proj1 (LK (fst id) (snd id))) as (s' & G' & I'). { exists m. rewrite <- surjective_pairing. exact GM. }
        rewrite G in G'. injection G' as <-. exact I'.
      * unfold suuid. rewrite G. discriminate.
      * intros x. unfold suuid at 1. cbn. apply (suuid_put_same (w_ns w) (fst id) s _ x G). reflexivity.
      * rewrite sdl_snoc. cbn [sds_event sid_name]. rewrite <- surjective_pairing. reflexivity.
    + destruct (CF _ _ _ EC). apply SAME; auto.
  - unfold exec_alter_model. destruct (aget _ _ _) as [m|] eqn:G; [|same]. destruct (aget bseq _ _) as [s|] eqn:GS; [|same].
    destruct (fdeltas order m k) as [[e|[nl a]]|] eqn:FD; [same| |same].
    destruct nl; cbn [negb]; [|same]. cbv zeta.
    assert (FIN : forall ev m' ds, 
      match a with
      | AaAdd fs => m' = live_add fs m /\ ds = map (fun kv => SdAdd (fst kv)) fs
      | AaRemove ks => m' = live_rem ks m /\ ds = map SdRem ks
      | AaUpdate fs => m' = live_upd fs m /\ ds = []
      | _ => False
      end ->
      (forall x d, sds_get (sds_event d ev) x = sds_get d x ++ (if ent_eqb x id then ds else [])) ->
      (let '(w1, ok) := driver_commit (e_commit en) ev w in
       if ok then (with_ns w1 (set_models (aput ent_eqb id m' (n_models (w_ns w1))) (w_ns w1)), OEmpty) else (w1, OErr ErrServer)) = (w', o) ->
      change en w w' (SAlterModel id k) o).
    { intros ev m' ds M SD H. destruct (driver_commit _ _ _) as [w1 [|]] eqn:EC; inversion H; subst; clear H.
      - apply commit_true in EC as [_ ->]. eapply cg_alter; cbn [w_ns with_ns w_log set_models n_models]; eauto.
        + rewrite FD. destruct a; auto; exact M.
        + intros x. rewrite sdl_snoc. apply SD.
      - destruct (CF _ _ _ EC). apply SAME; auto. intros; discriminate. }
    assert (EP : forall d mid ds, mid_ent mid = id -> forall x, sds_get (aput ent_eqb (mid_ent mid) (sds_get d (mid_ent mid) ++ ds) d) x = sds_get d x ++ (if ent_eqb x id then ds else [])).
    { intros d mid ds <- x. rewrite sds_put. destruct (ent_eqb x (mid_ent mid)) eqn:E; [|rewrite app_nil_r; reflexivity]. apply ent_eqb_eq in E as ->. reflexivity. }
    destruct a as [|fs|fs|ks].
    + intros H _. inversion H; subst. apply SAME; auto. intros _. exists m. auto.
    + intros H _. eapply FIN; [split; reflexivity| |exact H]. intros x d. cbn [sds_event]. apply EP. unfold mid_ent. cbn. rewrite <- surjective_pairing. reflexivity.
    + intros H _. eapply FIN; [split; reflexivity| |exact H]. intros x d. cbn [sds_event]. destruct (ent_eqb x id); rewrite app_nil_r; reflexivity.
    + intros H _. eapply FIN; [split; reflexivity| |exact H]. intros x d. cbn [sds_event]. apply EP. unfold mid_ent. cbn. rewrite <- surjective_pairing. reflexivity.
  - unfold exec_drop_model. destruct (aget bseq _ _) as [s|] eqn:G; [|same]. destruct (set_has _ _) eqn:SH; cbn [negb]; [|destruct exs; same].
    destruct (aget ent_eqb _ _) as [m|] eqn:GM; [|same]. destruct (_ && _); [same|].
    destruct (driver_commit _ _ _) as [w1 [|]] eqn:EC; intros H _; inversion H; subst; clear H.
    + apply commit_true in EC as [_ ->]. eapply cg_drop; cbn [w_ns with_ns w_log set_spaces set_models n_models]; eauto.
      * destruct exs; reflexivity.
      * intros x. unfold suuid at 1. cbn. apply (suuid_put_same (w_ns w) (fst id) s _ x G). reflexivity.
      * rewrite sdl_snoc. reflexivity.
    + destruct (CF _ _ _ EC). apply SAME; auto.
  - unfold exec_create_user. destruct (user_password _); [|same]. destruct (aget _ _ _); [same|].
    destruct (driver_commit _ _ _) as [w1 [|]] eqn:EC; intros H _; inversion H; subst; clear H.
    + apply commit_true in EC as [_ ->]. apply cg_none; cbn [w_ns with_ns w_log]; auto. rewrite sdl_snoc. reflexivity.
    + destruct (CF _ _ _ EC). apply SAME; auto.
  - destruct (se_root se); [same|]. destruct (user_password _); [|same]. unfold exec_alter_user. destruct (aget _ _ _); [|same].
    destruct (driver_commit _ _ _) as [w1 [|]] eqn:EC; intros H _; inversion H; subst; clear H.
    + apply commit_true in EC as [_ ->]. apply cg_none; cbn [w_ns with_ns w_log]; auto. rewrite sdl_snoc. reflexivity.
    + destruct (CF _ _ _ EC). apply SAME; auto.
  - destruct (bseq _ _); [same|]. unfold exec_drop_user. destruct (aget _ _ _); [|same].
    destruct (driver_commit _ _ _) as [w1 [|]] eqn:EC; intros H _; inversion H; subst; clear H.
    + apply commit_true in EC as [_ ->]. apply cg_none; cbn [w_ns with_ns w_log]; auto. rewrite sdl_snoc. reflexivity.
    + destruct (CF _ _ _ EC). apply SAME; auto.
  - destruct (w_iffy w); same.
Qed.
End Change.
