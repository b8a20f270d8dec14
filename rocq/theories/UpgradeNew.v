(** The directory an upgrade writes, and starting from it. *)
From Coq Require Import Strings.String List Arith NArith Bool Lia Permutation.
From Verif Require Import Bytes AMap DataModel CodecModel CodecProofs GnsCodecModel GnsCodecProofs GnsModel GnsProofs RowModel RowSpec RowProofs
  BatchModel BatchCodec BatchProofs BatchTable V1Model V1Spec V1LogProofs V1LogProps V1FileProofs
  UpgradeModel UpgradeSpec UpgradeProofs UpgradeNs V1FileProps UpgradeLoad UpgradeSteps.
Import ListNotations.
Local Open Scope N_scope.

Lemma space_models_perm n : ns_good n -> Permutation (space_models n) (akeys (n_models n)).
Proof.
  intros [G1 G2 G3 G4 G5]. apply NoDup_Permutation.
  - unfold space_models. clear G2 G3 G5.
    assert (X : forall k s, In (k, s) (n_spaces n) -> NoDup (sp_models s)).
    { intros k s I. apply (G4 k). apply (in_aget _ bseq_eq); assumption. }
    clear G4. induction (n_spaces n) as [|[k s] l IH]; [constructor|]. cbn [flat_map fst snd].
    change (akeys ((k, s) :: l)) with (k :: akeys l) in G1. inversion G1 as [|? ? NI ND]; subst.
    assert (N1 : NoDup (map (fun m : bytes => (k, m)) (sp_models s))).
    { apply FinFun.Injective_map_NoDup; [intros a b E; congruence|]. apply (X k). left. reflexivity. }
    assert (N2 := IH ND (fun k0 s0 I => X k0 s0 (or_intror I))).
    assert (DJ : forall x, In x (map (fun m : bytes => (k, m)) (sp_models s)) ->
       ~ In x (flat_map (fun ks : bytes * mspace => map (fun m => (fst ks, m)) (sp_models (snd ks))) l)).
    { intros x I1 I2. apply in_map_iff in I1 as (m & <- & _). apply in_flat_map in I2 as ([k2 s2] & I2 & I3).
      apply in_map_iff in I3 as (m2 & E & _). cbn [fst snd] in E. inversion E; subst. apply NI. apply (in_map fst) in I2. exact I2. }
    revert DJ N1. generalize (map (fun m : bytes => (k, m)) (sp_models s)). intros a DJ N1.
    induction a as [|x a IHa]; [exact N2|]. inversion N1; subst. cbn [app]. constructor.
    + rewrite in_app_iff. intros [I|I]; [contradiction|]. apply (DJ x); [left; reflexivity | exact I].
    + apply IHa; [|assumption]. intros y I. apply DJ. right. exact I.
  - exact G2.
  - intros [k m]. transitivity (exists x, aget ent_eqb (k, m) (n_models n) = Some x).
    + rewrite (G5 k m). unfold space_models. rewrite in_flat_map. split.
      * intros ([k0 s] & I & J). apply in_map_iff in J as (m0 & E & J). cbn [fst snd] in *. inversion E; subst.
        exists s. split; [apply (in_aget _ bseq_eq); assumption | exact J].
      * intros (s & I & J). exists (k, s). split; [apply (aget_in _ bseq_eq), I|]. apply in_map_iff. exists m. auto.
    + split; [intros [x E]; apply (aget_some_key _ ent_eqb_eq _ _ _ E)|]. intros I.
      destruct (aget ent_eqb (k, m) (n_models n)) eqn:E; [eauto|]. apply (aget_none _ ent_eqb_eq) in E. contradiction.
Qed.

(** models written by an upgrade have no schema deltas *)
Lemma recreate_sds n sps mds us : forall id, sds_get (fold_left sds_event (recreate_events n sps mds us) []) id = [].
Proof.
  intros id. unfold recreate_events.
  assert (X : forall l d, sds_get d id = [] -> Forall (fun e => match e with EvAlterModelAdd _ _ | EvAlterModelRemove _ _ => False | _ => True end) l ->
    sds_get (fold_left sds_event l d) id = []).
  { induction l as [|e l IH]; intros d H F; [exact H|]. inversion F as [|? ? F1 F2]; subst. cbn [fold_left]. apply IH; [|exact F2].
    destruct e; cbn [sds_event]; try exact H; try contradiction. unfold sds_get in *.
    destruct (ent_eqb id (sid_name sid, name)) eqn:E.
    - apply ent_eqb_eq in E. subst id. rewrite (aget_put_same _ ent_eqb_eq). reflexivity.
    - rewrite (aget_put_other _ ent_eqb_eq); [exact H|]. intros Q. apply ent_eqb_eq in Q. congruence. }
  apply X; [reflexivity|]. rewrite !Forall_app, !Forall_map. repeat split; apply Forall_forall; intros; exact Logic.I.
Qed.

(** a table with the content of an old file after a restart *)
Definition table_new (n : ns) (ops : ent -> list fop) (id : ent) (t : mst) : Prop :=
  exists f lay, file_of n id = Some (f, lay) /\ m_lay t = lay /\ m_sd t = [] /\ m_queue t = [] /\ m_iffy t = false /\
    rinv t (m_dver t) /\ full t /\
    (forall k, view t k = v1_content (List.length (col_names lay)) k (batches (ops id))).

Lemma restore_tables_ok n n' dl d' files ops ids : (forall id, sds_get d' id = []) -> (forall id, file_of n' id = file_of n id) ->
  Forall (fun id => exists f lay t ix, file_of n id = Some (f, lay) /\ aget fid_eqb f files = Some [full_batch ix t] /\
    Permutation ix (m_idx t) /\ table_holds n dl ops id t) ids ->
  exists ts, restore_tables n' d' files ids = VrOk ts /\ map fst ts = ids /\ Forall (fun it => table_new n' ops (fst it) (snd it)) ts.
Proof.
  intros SD FO. induction 1 as [|id ids H HF IH]; [exists []; repeat split; constructor|].
  destruct IH as (ts & E & M & T). destruct H as (f & lay & t & ix & E1 & E2 & P & (f0 & lay0 & E3 & L & S & D & Q & I & (b & R) & V & FU)).
  rewrite E1 in E3. injection E3 as <- <-.
  destruct (full_restart t b ix [] R P (Forall_nil _)) as (s2 & A & R2 & L2 & S2 & D2 & Q2 & Z2 & I2 & F2 & V2); [intros ? []|].
  cbn [restore_tables]. rewrite FO, E1, E2, SD, <- L, A, E. exists ((id, s2) :: ts). cbn [map fst]. split; [reflexivity|]. split; [congruence|].
  constructor; [|exact T]. cbn [fst snd]. exists f, lay. rewrite FO. split; [exact E1|]. split; [congruence|]. split; [exact S2|]. split; [exact Q2|].
  split; [exact I2|]. split; [rewrite D2; exact R2|]. split; [exact F2|]. intros k. rewrite V2. apply V.
Qed.

Lemma same_file n n' id : same_ns n n' -> file_of n' id = file_of n id.
Proof.
  intros (H1 & H2 & _). unfold file_of. specialize (H1 (fst id)). specialize (H2 id).
  destruct (aget bseq (fst id) (n_spaces n)) as [s|], (aget bseq (fst id) (n_spaces n')) as [s'|]; cbn [same_space] in H1; try contradiction; [|reflexivity].
  destruct H1 as (U & _). destruct (aget ent_eqb id (n_models n)) as [m|], (aget ent_eqb id (n_models n')) as [m'|]; cbn [option_map] in H2; try congruence.
Qed.

(** ** What the last part of the upgrade writes *)
Definition model_steps (nn : ns) (batch_of : ent -> batch) (km : ent * mmodel) : list (udisk -> udisk) :=
  match file_of nn (fst km) with
  | None => []
  | Some (f, _) => [on_new (fun l => l ++ [(f, [])]); new_event (ev_model nn km); on_new (add_batch f (batch_of (fst km)))]
  end.
Definition model_files (nn : ns) (batch_of : ent -> batch) (km : ent * mmodel) : list (fid * list batch) :=
  match file_of nn (fst km) with None => [] | Some (f, _) => [(f, [batch_of (fst km)])] end.

Lemma aput_new {K V} (eqb : K -> K -> bool) (ok : forall a b, eqb a b = true <-> a = b) k (v v' : V) l :
  ~ In k (akeys l) -> aput eqb k v' (l ++ [(k, v)]) = l ++ [(k, v')].
Proof.
  induction l as [|[x y] l IH]; intros N.
  - cbn [app aput]. assert (E : eqb k k = true) by (apply ok; reflexivity). rewrite E. reflexivity.
  - change (akeys ((x, y) :: l)) with (x :: akeys l) in N. cbn [app aput]. destruct (eqb k x) eqn:E.
    + exfalso. apply ok in E. subst. apply N. left. reflexivity.
    + rewrite IH; [reflexivity|]. intros I. apply N. right. exact I.
Qed.
Lemma aget_new {K V} (eqb : K -> K -> bool) (ok : forall a b, eqb a b = true <-> a = b) k (v : V) l :
  ~ In k (akeys l) -> aget eqb k (l ++ [(k, v)]) = Some v.
Proof.
  induction l as [|[x y] l IH]; intros N.
  - cbn [app aget]. assert (E : eqb k k = true) by (apply ok; reflexivity). rewrite E. reflexivity.
  - change (akeys ((x, y) :: l)) with (x :: akeys l) in N. cbn [app aget]. destruct (eqb k x) eqn:E.
    + exfalso. apply ok in E. subst. apply N. left. reflexivity.
    + apply IH. intros I. apply N. right. exact I.
Qed.

Lemma run_models nn bo mds : forall d el c, u_log d = Some (LgNew el c) ->
  Forall (fun km => file_of nn (fst km) <> None) mds -> NoDup (akeys mds) ->
  (forall km f lay, In km mds -> file_of nn (fst km) = Some (f, lay) -> ~ In f (akeys (u_new d))) ->
  run (flat_map (model_steps nn bo) mds) d =
  mk_ud (u_sys d) (Some (LgNew (el ++ map (ev_model nn) mds) c)) (u_old d) (u_new d ++ flat_map (model_files nn bo) mds).
Proof.
  induction mds as [|km mds IH]; intros d el c L F ND NI.
  { cbn [flat_map map run fold_left]. rewrite !app_nil_r. destruct d; cbn in *. rewrite L. reflexivity. }
  inversion F as [|? ? F1 F2]; subst. change (akeys (km :: mds)) with (fst km :: akeys mds) in ND. inversion ND as [|? ? N1 N2]; subst.
  cbn [flat_map map]. unfold model_steps at 1. unfold model_files at 1. destruct (file_of nn (fst km)) as [[f lay]|] eqn:E; [|congruence].
  rewrite run_app.
  assert (NF : ~ In f (akeys (u_new d))) by (eapply NI; [left; reflexivity | exact E]).
  match goal with |- run _ ?x = _ => set (d1 := x) end.
  assert (D1 : d1 = mk_ud (u_sys d) (Some (LgNew (el ++ [ev_model nn km]) c)) (u_old d) (u_new d ++ [(f, [bo (fst km)])])).
  { unfold d1, on_new, new_event, add_batch. cbn [run fold_left u_log u_sys u_old u_new]. rewrite L, (aget_new _ fid_eqb_eq) by exact NF.
    cbn [app]. rewrite (aput_new _ fid_eqb_eq) by exact NF. reflexivity. }
  clearbody d1.
  rewrite (IH d1 (el ++ [ev_model nn km]) c); auto.
  - subst d1. cbn [u_sys u_old u_new]. rewrite <- !app_assoc. reflexivity.
  - subst d1. reflexivity.
  - intros km' f' lay' I E'. subst d1. cbn [u_new]. unfold akeys. rewrite map_app, in_app_iff. intros [I2 | [I2 | []]].
    + eapply NI; [right; exact I | exact E' | exact I2].
    + cbn [fst] in I2. subst f'. apply N1. apply file_of_id in E. apply file_of_id in E'. rewrite E, <- E'. apply in_map. exact I.
Qed.

Lemma run_upgraded id fs fs2 fs3 nn sps mds us bo d : u_new d = [] ->
  Forall (fun km => file_of nn (fst km) <> None) mds -> NoDup (akeys mds) ->
  exists o, run (upgrade_steps id fs fs2 fs3 nn sps mds us bo) d =
    mk_ud None (Some (LgNew (recreate_events nn sps mds us) false)) o (flat_map (model_files nn bo) mds).
Proof.
  intros U F ND. unfold upgrade_steps. do 7 rewrite run_app.
  match goal with |- context [run (map (fun f => on_old (adel fid_eqb f)) fs3) ?x] => set (d4 := x) end.
  assert (U4 : u_new d4 = []).
  { unfold d4. rewrite !(run_old (fun f => add_bytes f _)). unfold on_old, on_log. cbn [run fold_left u_new]. exact U. }
  clearbody d4. rewrite (run_old (adel fid_eqb)). set (d5 := on_old _ d4).
  assert (U5 : u_new d5 = []) by exact U4. clearbody d5. cbn [run fold_left u_sys u_log u_old u_new]. rewrite U5.
  rewrite run_app. cbn [run fold_left u_sys u_log u_old u_new].
  rewrite run_app, run_app. rewrite <- (map_map ev_space new_event). rewrite (run_events (map ev_space sps) _ [] false) by reflexivity. cbn [u_sys u_log u_old u_new app].
  change (flat_map (fun km => match file_of nn (fst km) with Some (f, _) => _ | None => [] end) mds) with (flat_map (model_steps nn bo) mds).
  rewrite (run_models nn bo mds _ (map ev_space sps) false); auto.
  cbn [u_sys u_log u_old u_new app]. rewrite <- (map_map ev_user new_event). rewrite (run_events (map ev_user us) _ (map ev_space sps ++ map (ev_model nn) mds) false) by reflexivity.
  cbn [u_sys u_old u_new]. exists (u_old d5). unfold recreate_events. rewrite <- app_assoc. reflexivity.
Qed.

Lemma model_files_get nn bo mds e f lay : NoDup (akeys mds) -> In e (akeys mds) -> file_of nn e = Some (f, lay) ->
  aget fid_eqb f (flat_map (model_files nn bo) mds) = Some [bo e].
Proof.
  induction mds as [|km mds IH]; intros ND I E; [destruct I|]. change (akeys (km :: mds)) with (fst km :: akeys mds) in *.
  inversion ND as [|? ? N1 N2]; subst. cbn [flat_map]. unfold model_files at 1. destruct I as [<- | I].
  - rewrite E. cbn [app aget]. assert (Q : fid_eqb f f = true) by (apply fid_eqb_eq; reflexivity). rewrite Q. reflexivity.
  - destruct (file_of nn (fst km)) as [[g lay']|] eqn:E2; [|apply IH; assumption]. cbn [app aget].
    destruct (fid_eqb f g) eqn:Q; [|apply IH; assumption]. exfalso. apply fid_eqb_eq in Q. subst g.
    apply file_of_id in E. apply file_of_id in E2. apply N1. rewrite E2, <- E. exact I.
Qed.

(** the server shuts down: the log is closed *)
Definition shut (d : udisk) : udisk :=
  mk_ud (u_sys d) (match u_log d with Some (LgNew es _) => Some (LgNew es true) | l => l end) (u_old d) (u_new d).

Theorem upgraded_restart utf8 crc32 cap ids d es us ops n id fs fs2 fs3 sps mds us3 ts bo :
  (forall m, ns_good m -> Permutation (ids m) (akeys (n_models m))) ->
  old_dir utf8 crc32 ids d es us ops n -> u_new d = [] ->
  map fst ts = ids n -> Forall (fun it => table_holds n (fold_left sds_event es []) ops (fst it) (snd it)) ts ->
  let nn := add_users us n in
  Permutation sps (n_spaces nn) -> Permutation mds (n_models nn) -> Permutation us3 (n_users nn) ->
  (forall e t, In (e, t) ts -> exists ix, Permutation ix (m_idx t) /\ bo e = full_batch ix t) ->
  exists n' ts', start utf8 crc32 cap ids (shut (run (upgrade_steps id fs fs2 fs3 nn sps mds us3 bo) d)) = StUp n' ts' /\
    same_ns nn n' /\ map fst ts' = ids n' /\ Permutation (ids n') (akeys (n_models n')) /\
    Forall (fun it => table_new n' ops (fst it) (snd it)) ts'.
Proof.
  intros PI od U M T nn P1 P2 P3 B.
  pose proof (replay_good _ _ _ ns_good_empty (od_ns _ _ _ _ _ _ _ _ od)) as G0.
  destruct (add_users_spec us n G0) as (G & EQ1 & EQ2 & _). fold nn in G, EQ1, EQ2.
  assert (ND : NoDup (akeys mds)) by (eapply perm_nd; [exact P2 | apply (ng_md _ G)]).
  assert (FO : forall e, In e (akeys mds) -> file_of nn e <> None).
  { intros e I. assert (I2 : In e (akeys (n_models nn))) by (eapply Permutation_in; [apply Permutation_map, P2 | exact I]).
    destruct (aget ent_eqb e (n_models nn)) as [m|] eqn:E; [|apply (aget_none _ ent_eqb_eq) in E; contradiction].
    unfold file_of. rewrite E. destruct e as [a b]. destruct (proj1 (ng_link _ G a b) (ex_intro _ m E)) as (s & S & _). cbn [fst]. rewrite S. congruence. }
  destruct (run_upgraded id fs fs2 fs3 nn sps mds us3 bo d U) as (o & RU).
  { apply Forall_forall. intros km I. apply FO. apply in_map. exact I. } { exact ND. }
  rewrite RU. unfold shut. cbn [u_sys u_log u_old u_new]. unfold start. cbn [u_sys u_log u_new]. unfold restore_new.
  destruct (recreate_replayed nn sps mds us3 G P1 P2 P3) as (n' & RP & SN & GN & MV). rewrite RP.
  pose proof (PI n' GN) as PN.
  destruct (restore_tables_ok n n' (fold_left sds_event es []) (fold_left sds_event (recreate_events nn sps mds us3) [])
    (flat_map (model_files nn bo) mds) ops (ids n')) as (ts' & E & M' & T').
  - apply recreate_sds.
  - intros e. rewrite (same_file _ _ _ SN). unfold nn. apply file_of_users.
  - apply Forall_forall. intros e I.
    assert (I2 : In e (akeys (n_models nn))).
    { assert (I3 : In e (akeys (n_models n'))) by (eapply Permutation_in; [exact PN | exact I]).
      destruct (aget ent_eqb e (n_models n')) as [m|] eqn:E; [|apply (aget_none _ ent_eqb_eq) in E; contradiction].
      destruct SN as (_ & S2 & _). specialize (S2 e). rewrite E in S2. cbn [option_map] in S2.
      destruct (aget ent_eqb e (n_models nn)) as [m0|] eqn:E0; [|discriminate S2]. apply (aget_some_key _ ent_eqb_eq _ _ _ E0). }
    assert (I4 : In e (akeys mds)) by (eapply Permutation_in; [apply Permutation_map, Permutation_sym, P2 | exact I2]).
    assert (I5 : In e (map fst ts)).
    { rewrite M. eapply Permutation_in; [apply Permutation_sym, (od_ids _ _ _ _ _ _ _ _ od)|]. rewrite <- EQ2. exact I2. }
    apply in_map_iff in I5 as ([e0 t] & Q & I5). cbn [fst] in Q. subst e0. destruct (B _ _ I5) as (ix & PX & BE).
    specialize (FO e I4). destruct (file_of nn e) as [[f lay]|] eqn:EF; [|congruence].
    exists f, lay, t, ix. split; [rewrite <- EF; symmetry; apply file_of_users|]. split; [rewrite <- BE; eapply model_files_get; eauto|].
    split; [exact PX|]. rewrite Forall_forall in T. apply (T _ I5).
  - rewrite E. cbn [as_started]. exists n', ts'. auto 6.
Qed.
