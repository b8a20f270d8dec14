(** Statements that change the namespace, and the restart, inside the whole server. *)
From Coq Require Import Strings.String List NArith Bool Arith Lia Permutation.
From Verif Require Import Bytes AMap DataModel CodecModel GnsCodecModel DictModel GnsModel GnsProofs GnsHist RowModel BatchModel BatchTable UpgradeModel UpgradeSteps WholeModel WholeSpec WholeProofs WholeSteps WholeInv.
Import ListNotations.
Local Open Scope N_scope.

Lemma live_add_ver fs : forall m, md_ver (live_add fs m) = md_ver m + N.of_nat (length fs).
Proof.
  induction fs as [|[k v] fs IH]; intros m; [cbn; lia|]. unfold live_add. cbn [fold_left fst snd].
  change (fold_left (fun m kv => fst (mut_add (fst kv) (snd kv) m)) fs ?x) with (live_add fs x). rewrite IH.
  unfold mut_add. destruct (f_insert _ _ _) as [f r]. cbn [fst bump set_fields md_ver length]. lia.
Qed.
Lemma live_rem_ver ks : forall m, md_ver (live_rem ks m) = md_ver m + N.of_nat (length ks).
Proof.
  induction ks as [|k ks IH]; intros m; [cbn; lia|]. unfold live_rem. cbn [fold_left].
  change (fold_left (fun m k => fst (mut_rem k m)) ks ?x) with (live_rem ks x). rewrite IH.
  unfold mut_rem. destruct (f_delete _ _) as [f r]. cbn [fst bump set_fields md_ver length]. lia.
Qed.
Lemma live_upd_ver fs : forall m, md_ver (live_upd fs m) = md_ver m.
Proof.
  induction fs as [|[k v] fs IH]; intros m; [reflexivity|]. unfold live_upd. cbn [fold_left fst snd].
  change (fold_left (fun m kv => fst (mut_upd (fst kv) (snd kv) m)) fs ?x) with (live_upd fs x). rewrite IH.
  unfold mut_upd. destruct (f_update _ _ _) as [f r]. reflexivity.
Qed.
Lemma set_fields_uuid f m : lo_uuid (md_lay (set_fields f m)) = lo_uuid (md_lay m). Proof. reflexivity. Qed.
Lemma live_add_uuid fs : forall m, lo_uuid (md_lay (live_add fs m)) = lo_uuid (md_lay m).
Proof.
  induction fs as [|[k v] fs IH]; intros m; [reflexivity|]. unfold live_add. cbn [fold_left fst snd].
  change (fold_left (fun m kv => fst (mut_add (fst kv) (snd kv) m)) fs ?x) with (live_add fs x). rewrite IH.
  unfold mut_add. destruct (f_insert _ _ _) as [f r]. reflexivity.
Qed.
Lemma live_rem_uuid ks : forall m, lo_uuid (md_lay (live_rem ks m)) = lo_uuid (md_lay m).
Proof.
  induction ks as [|k ks IH]; intros m; [reflexivity|]. unfold live_rem. cbn [fold_left].
  change (fold_left (fun m k => fst (mut_rem k m)) ks ?x) with (live_rem ks x). rewrite IH.
  unfold mut_rem. destruct (f_delete _ _) as [f r]. reflexivity.
Qed.
Lemma live_upd_uuid fs : forall m, lo_uuid (md_lay (live_upd fs m)) = lo_uuid (md_lay m).
Proof.
  induction fs as [|[k v] fs IH]; intros m; [reflexivity|]. unfold live_upd. cbn [fold_left fst snd].
  change (fold_left (fun m kv => fst (mut_upd (fst kv) (snd kv) m)) fs ?x) with (live_upd fs x). rewrite IH.
  unfold mut_upd. destruct (f_update _ _ _) as [f r]. reflexivity.
Qed.

Section Ddl.
Variable farith : aop -> N -> N -> N.
Variable order : fieldmap -> fieldmap.
Variable hash : bytes -> N -> bytes.
Variable verify : bytes -> bytes -> bool.
Hypothesis order_perm : forall l, Permutation (order l) l.

Notation gstep := (gstep farith order hash verify).
Notation gns g := (w_ns (sv_w (g_sv g))).
Notation glog g := (w_log (sv_w (g_sv g))).
Notation whole := (whole order hash verify).
Notation trans := (trans farith order).
Notation had key salt sv := (exists l, hist order hash verify key salt l sv /\ Forall op_nd l /\ Forall no_failed_drop l).

Lemma file_of_eq n n' id : suuid n' (fst id) = suuid n (fst id) -> aget ent_eqb id (n_models n') = aget ent_eqb id (n_models n) ->
  file_of n' id = file_of n id.
Proof. intros E1 E2. rewrite !file_of_suuid, E1, E2. reflexivity. Qed.

Lemma synced_eq g g' id : aget ent_eqb id (g_nodes g') = aget ent_eqb id (g_nodes g) ->
  aget ent_eqb id (n_models (gns g')) = aget ent_eqb id (n_models (gns g)) ->
  (aget ent_eqb id (g_nodes g) <> None -> suuid (gns g') (fst id) = suuid (gns g) (fst id)) ->
  (aget ent_eqb id (g_nodes g) <> None -> sds_get (sdl (glog g')) id = sds_get (sdl (glog g)) id) -> synced g id -> synced g' id.
Proof.
  unfold synced. intros E1 E2 E3 E4. rewrite E1, E2. destruct (aget ent_eqb id (g_nodes g)) as [nd|]; [|auto].
  destruct (aget ent_eqb id (n_models (gns g))) eqn:GM; [|auto]. intros (A & B & C & D).
  assert (NE : Some nd <> None) by discriminate. rewrite (file_of_eq (gns g) (gns g') id (E3 NE)), (E4 NE) by congruence. auto.
Qed.

(** what [creates] and [own1] say of statements *)
Lemma creates_not i en s o x : match s with SCreateModel id _ _ _ => id <> x \/ did o = false | _ => True end -> ~ creates x (GDdl i en s, GoDdl o).
Proof using. unfold creates. destruct s; try (intros _ []; fail). intros H. destruct o as [|[|]| |]; cbn [did] in H; try (intros []; fail); intros EQ; subst; destruct H as [H|H]; try discriminate H; auto. Qed.
Lemma own_not i en s o x l : match s with SCreateModel id _ _ _ => id <> x \/ did o = false | SAlterModel id _ => id <> x \/ o <> OEmpty | _ => True end ->
  own1 x l (GDdl i en s, GoDdl o) = l.
Proof.
  unfold own1. destruct s; try reflexivity; destruct o as [|[|]| |]; cbn [did]; try reflexivity; intros [H|H]; try discriminate H;
    try (destruct (ent_dec _ _); [contradiction|reflexivity]); contradiction.
Qed.

(** *** nothing but other models, and maybe a new file *)
Lemma same_step key salt h g sv' o r files' dels' f : whole key salt h g -> had key salt sv' ->
  n_models (w_ns (sv_w sv')) = n_models (gns g) -> (forall k, suuid (w_ns (sv_w sv')) k = suuid (gns g) k) -> sdl (w_log (sv_w sv')) = sdl (glog g) ->
  (files' = g_files g /\ dels' = g_dels g \/
   In (snd (snd f)) (used (h ++ [(o, r)])) /\ ~ In (snd (snd f)) (used h) /\ files' = aput fid_eqb f (mk_df [] false false) (g_files g) /\
     (dels' = g_dels g \/ dels' = g_dels g ++ [DelModel f])) ->
  (forall x, ~ creates x (o, r)) -> (forall x l, own1 x l (o, r) = l) ->
  let g' := mk_gst sv' (g_nodes g) files' (g_tasks g) dels' in
  whole key salt (h ++ [(o, r)]) g' /\ forall id, trans id g g' o r.
Proof.
  intros W HI EM ES EL FD NC NO g'. pose proof (whole_more order hash verify key salt h g (o, r) W) as W1. pose proof W1 as [A B C D E F G H].
  assert (NF : forall id nd, aget ent_eqb id (g_nodes g) = Some nd -> aget fid_eqb (nd_file nd) files' = aget fid_eqb (nd_file nd) (g_files g)).
  { intros id nd GX. destruct FD as [[-> _]|(_ & NU & -> & _)]; [reflexivity|]. apply (aget_put_other fid_eqb fid_eqb_eq). intros EQ. apply NU.
    destruct (node_file order hash verify key salt h g id nd W GX) as (_ & _ & X & _). rewrite <- EQ, X. eapply uuid_used; eassumption. }
  split.
  - constructor; unfold g'; cbn [g_sv g_nodes g_files g_tasks g_dels]; auto.
    + intros id. apply (synced_eq g); auto; cbn [g_sv]; [rewrite EM; reflexivity|rewrite EL; reflexivity].
    + intros id nd GX. rewrite (NF _ _ GX). eauto.
    + intros x d X. destruct FD as [[-> _]|(IU & NU & -> & _)]; [eauto|]. destruct (fid_eqb x f) eqn:Y.
      * apply fid_eqb_eq in Y as ->. exact IU.
      * rewrite (aget_put_other fid_eqb fid_eqb_eq) in X; [eauto|]. intros ->. rewrite (eqb_r fid_eqb fid_eqb_eq) in Y. discriminate Y.
    + intros k u X. rewrite ES in X. eauto.
    + intros d X. assert (X2 : In d (g_dels g) \/ d = DelModel f /\ In (snd (snd f)) (used (h ++ [(o, r)]))).
      { destruct FD as [[_ ->]|(IU & _ & _ & [->| ->])]; auto. apply in_app_or in X as [X|[<-|[]]]; auto. }
      destruct X2 as [X2|[-> IU]]; [|exact IU]. specialize (G _ X2). destruct d; [exact G|]. rewrite ES. exact G.
    + intros d id nd X GX. destruct FD as [[_ ->]|(_ & NU & _ & [->| ->])]; [eauto|eauto|]. apply in_app_or in X as [X|[<-|[]]]; [eauto|].
      cbn [hit]. apply (eqb_f fid_eqb fid_eqb_eq). intros ->. apply NU.
      destruct (node_file order hash verify key salt h g id nd W GX) as (_ & _ & X & _). rewrite X. eapply uuid_used; eassumption.
  - intros id. apply trans_still; auto. intros nd GX. exists nd. split; [exact GX|]. unfold gview, bare, file_at, g'. cbn [g_files g_tasks]. rewrite (NF _ _ GX). reflexivity.
Qed.

(** *** CREATE SPACE *)
Lemma space_step key salt h g sv' o r k u : whole key salt h g -> had key salt sv' ->
  n_models (w_ns (sv_w sv')) = n_models (gns g) -> (forall x, suuid (w_ns (sv_w sv')) x = if bseq x k then Some u else suuid (gns g) x) ->
  sdl (w_log (sv_w sv')) = sdl (glog g) -> suuid (gns g) k = None -> In u (used (h ++ [(o, r)])) -> ~ In u (used h) ->
  (forall x, ~ creates x (o, r)) -> (forall x l, own1 x l (o, r) = l) ->
  let g' := mk_gst sv' (g_nodes g) (g_files g) (g_tasks g) (g_dels g) in
  whole key salt (h ++ [(o, r)]) g' /\ forall id, trans id g g' o r.
Proof.
  intros W HI EM ES EL SN IU NU NC NO g'. pose proof (whole_more order hash verify key salt h g (o, r) W) as W1. pose proof W1 as [A B C D E F G H].
  split.
  - constructor; unfold g'; cbn [g_sv g_nodes g_files g_tasks g_dels]; auto.
    + intros id. apply (synced_eq g); auto; cbn [g_sv]; [rewrite EM; reflexivity| |rewrite EL; reflexivity]. intros GN.
      destruct (aget ent_eqb id (g_nodes g)) as [nd|] eqn:GX; [|contradiction]. rewrite ES. destruct (bseq (fst id) k) eqn:X; [|reflexivity].
      apply bseq_eq in X. destruct (node_file order hash verify key salt h g id nd W GX) as (_ & _ & _ & Y). congruence.
    + intros x v X. rewrite ES in X. destruct (bseq x k); [injection X as <-; exact IU|eauto].
    + intros d X. pose proof (G _ X) as Y. pose proof (wo_dels _ _ _ _ _ _ _ W _ X) as Y2. destruct d as [f|x v]; [exact Y|]. rewrite ES.
      destruct Y, Y2. split; [assumption|]. destruct (bseq x k); [|assumption]. congruence.
  - intros id. apply trans_still; auto. intros nd GX. exists nd. auto.
Qed.

(** *** dropping models *)
Lemma still_get n l x : aget ent_eqb x (still n l) = match aget ent_eqb x (n_models n) with Some _ => aget ent_eqb x l | None => None end.
Proof.
  unfold still. rewrite (aget_filter ent_eqb ent_eqb_eq (fun x => match aget ent_eqb x (n_models n) with Some _ => true | None => false end)).
  destruct (aget ent_eqb x (n_models n)); reflexivity.
Qed.

Lemma gone_models key salt h g sv' o r d (dropped : ent -> bool) : whole key salt h g -> had key salt sv' ->
  (forall x, aget ent_eqb x (n_models (w_ns (sv_w sv'))) = if dropped x then None else aget ent_eqb x (n_models (gns g))) ->
  (forall x, dropped x = false -> suuid (w_ns (sv_w sv')) (fst x) = suuid (gns g) (fst x)) ->
  (forall k u, suuid (w_ns (sv_w sv')) k = Some u -> suuid (gns g) k = Some u) ->
  sdl (w_log (sv_w sv')) = sdl (glog g) ->
  (forall x nd, dropped x = false -> aget ent_eqb x (g_nodes g) = Some nd -> hit d (nd_file nd) = false) ->
  match d with DelModel f => In (snd (snd f)) (used h) | DelSpace k u => In u (used h) /\ suuid (w_ns (sv_w sv')) k <> Some u end ->
  (forall x, ~ creates x (o, r)) -> (forall x l, own1 x l (o, r) = l) ->
  let g' := mk_gst sv' (still (w_ns (sv_w sv')) (g_nodes g)) (g_files g) (g_tasks g) (g_dels g ++ [d]) in
  whole key salt (h ++ [(o, r)]) g' /\ forall id, trans id g g' o r.
Proof.
  intros W HI EM ES EU EL HD UD NC NO g'. pose proof (whole_more order hash verify key salt h g (o, r) W) as W1. pose proof W1 as [A B C D E F G H].
  assert (ND : forall x, aget ent_eqb x (g_nodes g') = if dropped x then None else aget ent_eqb x (g_nodes g)).
  { intros x. unfold g'. cbn [g_nodes]. rewrite still_get, EM. destruct (dropped x); [reflexivity|]. specialize (B x). unfold synced in B.
    destruct (aget ent_eqb x (n_models (gns g))); [reflexivity|]. destruct (aget ent_eqb x (g_nodes g)); [destruct B|reflexivity]. }
  split.
  - constructor; unfold g'; cbn [g_sv g_files g_tasks g_dels]; auto.
    + intros x. fold g'. destruct (dropped x) eqn:X.
      * unfold synced. rewrite ND. unfold g'. cbn [g_sv]. rewrite EM, X. exact Logic.I.
      * apply (synced_eq g); auto; [rewrite ND, X; reflexivity|unfold g'; cbn [g_sv]; rewrite EM, X; reflexivity|unfold g'; cbn [g_sv]; rewrite EL; reflexivity].
    + fold g'. intros x nd GX. rewrite ND in GX. destruct (dropped x); [discriminate GX|eauto].
    + intros k u X. eauto.
    + intros x X. apply in_app_or in X as [X|[<-|[]]].
      * specialize (G _ X). destruct x; [exact G|]. destruct G as [G1 G2]. split; [exact G1|]. intros Y. apply G2. apply EU. exact Y.
      * destruct d; [apply used_more; exact UD|]. destruct UD. split; [apply used_more|]; assumption.
    + fold g'. intros x id nd X GX. rewrite ND in GX. destruct (dropped id) eqn:Y; [discriminate GX|]. apply in_app_or in X as [X|[<-|[]]]; eauto.
  - intros id. unfold WholeInv.trans. rewrite ND. destruct (aget ent_eqb id (g_nodes g)) as [nd|] eqn:GX; destruct (dropped id); auto.
Qed.

(** *** CREATE MODEL *)
Lemma new_fid_suuid id u n : new_fid id u n = ((fst id, match suuid n (fst id) with Some x => x | None => 0 end), (snd id, u)).
Proof. unfold new_fid, suuid. destruct (aget bseq (fst id) (n_spaces n)); reflexivity. Qed.

Lemma make_step key salt h g sv' i en id fs props nx out lay : whole key salt h g -> had key salt sv' -> did out = true ->
  process_create_model (e_uuid en) fs props = inr lay -> lo_uuid lay = e_uuid en -> aget ent_eqb id (n_models (gns g)) = None -> suuid (gns g) (fst id) <> None ->
  n_models (w_ns (sv_w sv')) = aput ent_eqb id (mk_mmodel lay 0) (n_models (gns g)) -> (forall k, suuid (w_ns (sv_w sv')) k = suuid (gns g) k) ->
  sdl (w_log (sv_w sv')) = aput ent_eqb id [] (sdl (glog g)) -> ~ In (e_uuid en) (used h) ->
  let f := new_fid id (e_uuid en) (gns g) in
  let o := GDdl i en (SCreateModel id fs props nx) in
  let g' := mk_gst sv' (aput ent_eqb id (mk_node (mst_new lay) None f) (g_nodes g)) (aput fid_eqb f (mk_df [] false false) (g_files g)) (g_tasks g) (g_dels g) in
  whole key salt (h ++ [(o, GoDdl out)]) g' /\ forall x, trans x g g' o (GoDdl out).
Proof.
  intros W HI DI PC LU MN SN EM ES EL NU f o g'. pose proof (whole_more order hash verify key salt h g (o, GoDdl out) W) as W1. pose proof W1 as [A B C D E F G H].
  assert (IU : In (e_uuid en) (used (h ++ [(o, GoDdl out)]))) by (rewrite used_snoc; apply in_or_app; right; left; reflexivity).
  assert (FU : snd (snd f) = e_uuid en) by reflexivity.
  assert (FO : forall x nd, aget ent_eqb x (g_nodes g) = Some nd -> nd_file nd <> f).
  { intros x nd GX EQ. apply NU. rewrite <- FU, <- EQ. destruct (node_file order hash verify key salt h g x nd W GX) as (_ & _ & -> & _). eapply uuid_used; eassumption. }
  assert (ND : forall x, aget ent_eqb x (g_nodes g') = if ent_eqb x id then Some (mk_node (mst_new lay) None f) else aget ent_eqb x (g_nodes g)).
  { intros x. unfold g'. cbn [g_nodes]. destruct (ent_eqb x id) eqn:X.
    - apply ent_eqb_eq in X as ->. apply (aget_put_same ent_eqb ent_eqb_eq).
    - apply (aget_put_other ent_eqb ent_eqb_eq). intros ->. rewrite (eqb_r ent_eqb ent_eqb_eq) in X. discriminate X. }
  assert (NN : aget ent_eqb id (g_nodes g) = None).
  { specialize (B id). unfold synced in B. rewrite MN in B. destruct (aget ent_eqb id (g_nodes g)); [destruct B|reflexivity]. }
  assert (MM : forall x, aget ent_eqb x (n_models (w_ns (sv_w sv'))) = if ent_eqb x id then Some (mk_mmodel lay 0) else aget ent_eqb x (n_models (gns g))).
  { intros x. rewrite EM. destruct (ent_eqb x id) eqn:X.
    - apply ent_eqb_eq in X as ->. apply (aget_put_same ent_eqb ent_eqb_eq).
    - apply (aget_put_other ent_eqb ent_eqb_eq). intros ->. rewrite (eqb_r ent_eqb ent_eqb_eq) in X. discriminate X. }
  split.
  - constructor; unfold g'; cbn [g_sv g_files g_tasks g_dels]; fold g'; auto.
    + intros x. destruct (ent_eqb x id) eqn:X.
      * apply ent_eqb_eq in X as ->. unfold synced. rewrite ND, (eqb_r ent_eqb ent_eqb_eq). unfold g'. cbn [g_sv]. rewrite MM, (eqb_r ent_eqb ent_eqb_eq).
        cbn [nd_m nd_file mst_new m_lay m_sd md_lay md_ver]. split; [reflexivity|]. split; [reflexivity|]. split.
        -- rewrite file_of_suuid, ES, MM, (eqb_r ent_eqb ent_eqb_eq). unfold f. rewrite new_fid_suuid. cbn [md_lay]. rewrite LU.
           destruct (suuid (gns g) (fst id)); [reflexivity|contradiction].
        -- rewrite EL, sds_put, (eqb_r ent_eqb ent_eqb_eq). reflexivity.
      * apply (synced_eq g); auto; [rewrite ND, X; reflexivity|unfold g'; cbn [g_sv]; rewrite MM, X; reflexivity|].
        intros _. unfold g'. cbn [g_sv]. rewrite EL, sds_put, X. reflexivity.
    + intros x nd GX. rewrite ND in GX. destruct (ent_eqb x id).
      * injection GX as <-. cbn [nd_file]. rewrite (aget_put_same fid_eqb fid_eqb_eq). discriminate.
      * rewrite (aget_put_other fid_eqb fid_eqb_eq); [eauto|]. exact (FO _ _ GX).
    + intros x d X. destruct (fid_eqb x f) eqn:Y.
      * apply fid_eqb_eq in Y as ->. rewrite FU. exact IU.
      * rewrite (aget_put_other fid_eqb fid_eqb_eq) in X; [eauto|]. intros ->. rewrite (eqb_r fid_eqb fid_eqb_eq) in Y. discriminate Y.
    + intros k u X. rewrite ES in X. eauto.
    + intros d X. specialize (G _ X). destruct d; [exact G|]. rewrite ES. exact G.
    + intros d x nd X GX. rewrite ND in GX. destruct (ent_eqb x id); [|eauto]. injection GX as <-. cbn [nd_file].
      pose proof (wo_dels _ _ _ _ _ _ _ W _ X) as Y. destruct d as [f'|k u]; cbn [hit].
      * apply (eqb_f fid_eqb fid_eqb_eq). intros ->. rewrite FU in Y. contradiction.
      * destruct (bseq k (fst (fst f))) eqn:Z; [|reflexivity]. apply bseq_eq in Z. cbn [andb]. apply N.eqb_neq. intros ->. destruct Y as [_ Y]. apply Y.
        unfold f in Z |- *. rewrite new_fid_suuid in Z |- *. cbn [fst snd] in Z |- *. rewrite Z. destruct (suuid (gns g) (fst id)); [reflexivity|contradiction].
  - intros x. destruct (ent_dec x id) as [->|N].
    + unfold WholeInv.trans. rewrite NN, ND, (eqb_r ent_eqb ent_eqb_eq). exists i, en, fs, props, nx, out, lay.
      split; [reflexivity|]. split; [reflexivity|]. split; [destruct out as [|[|]| |]; try discriminate DI; reflexivity|]. split; [exact PC|].
      unfold gview, bare, file_at. cbn [nd_file nd_m nd_fl]. unfold g'. cbn [g_files g_tasks].
      rewrite (aget_put_same fid_eqb fid_eqb_eq). cbn [df_bs df_torn df_bad]. unfold bst_new. f_equal.
      apply tof_none. intros t I. unfold mine, nd_uuid. cbn [nd_m mst_new m_lay]. rewrite LU.
      destruct (ent_eqb id (wt_id t)); [|reflexivity]. cbn [andb]. apply N.eqb_neq. intros X. apply NU. rewrite <- X.
      exact (wo_tasks _ _ _ _ _ _ _ W _ I).
    + apply trans_still; [| | |].
      * intros nd GX. exists nd. rewrite ND, (eqb_f ent_eqb ent_eqb_eq) by exact N. split; [exact GX|].
        unfold gview, bare, file_at. unfold g'. cbn [g_files g_tasks]. rewrite (aget_put_other fid_eqb fid_eqb_eq); [reflexivity|]. exact (FO _ _ GX).
      * rewrite ND, (eqb_f ent_eqb ent_eqb_eq) by exact N. auto.
      * apply creates_not. left. congruence.
      * intros l. apply own_not. left. congruence.
Qed.

(** *** ALTER MODEL *)
Lemma alter_step key salt h g sv' i en id k nd m' mm mm' ds : whole key salt h g -> had key salt sv' ->
  aget ent_eqb id (g_nodes g) = Some nd -> nd_fl nd = None -> aget ent_eqb id (n_models (gns g)) = Some mm ->
  rstep farith order (nd_m nd) (RAlter k true) = (m', RoOk) -> m_lay m' = md_lay mm' -> lo_uuid (md_lay mm') = lo_uuid (md_lay mm) ->
  m_sd m' = m_sd (nd_m nd) ++ ds -> md_ver mm' = md_ver mm + N.of_nat (length ds) ->
  (forall x, aget ent_eqb x (n_models (w_ns (sv_w sv'))) = if ent_eqb x id then Some mm' else aget ent_eqb x (n_models (gns g))) ->
  (forall x, suuid (w_ns (sv_w sv')) x = suuid (gns g) x) ->
  (forall x, sds_get (sdl (w_log (sv_w sv'))) x = sds_get (sdl (glog g)) x ++ (if ent_eqb x id then ds else [])) ->
  let o := GDdl i en (SAlterModel id k) in
  let g' := mk_gst sv' (aput ent_eqb id (mk_node m' (nd_fl nd) (nd_file nd)) (g_nodes g)) (g_files g) (g_tasks g) (g_dels g) in
  whole key salt (h ++ [(o, GoDdl OEmpty)]) g' /\ forall x, trans x g g' o (GoDdl OEmpty).
Proof.
  intros W HI GN NF GM RS EL EU ED EV MM ES SD o g'. pose proof (whole_more order hash verify key salt h g (o, GoDdl OEmpty) W) as W1. pose proof W1 as [A B C D E F G H].
  assert (ND : forall x, aget ent_eqb x (g_nodes g') = if ent_eqb x id then Some (mk_node m' (nd_fl nd) (nd_file nd)) else aget ent_eqb x (g_nodes g)).
  { intros x. unfold g'. cbn [g_nodes]. destruct (ent_eqb x id) eqn:X.
    - apply ent_eqb_eq in X as ->. apply (aget_put_same ent_eqb ent_eqb_eq).
    - apply (aget_put_other ent_eqb ent_eqb_eq). intros ->. rewrite (eqb_r ent_eqb ent_eqb_eq) in X. discriminate X. }
  destruct (synced_some _ _ _ (B id) GN) as (mm0 & GM0 & Y1 & Y2 & Y3 & Y4). rewrite GM in GM0. injection GM0 as <-.
  assert (UU : nd_uuid (mk_node m' (nd_fl nd) (nd_file nd)) = nd_uuid nd) by (unfold nd_uuid; cbn [nd_m]; congruence).
  split.
  - constructor; unfold g'; cbn [g_sv g_files g_tasks g_dels]; fold g'; auto.
    + intros x. destruct (ent_eqb x id) eqn:X.
      * apply ent_eqb_eq in X as ->. unfold synced. rewrite ND, (eqb_r ent_eqb ent_eqb_eq). unfold g'. cbn [g_sv]. rewrite MM, (eqb_r ent_eqb ent_eqb_eq).
        cbn [nd_m nd_file]. split; [exact EL|]. split; [unfold sver in *; rewrite ED, app_length; lia|]. split.
        -- rewrite file_of_suuid, ES, MM, (eqb_r ent_eqb ent_eqb_eq). rewrite file_of_suuid, GM in Y3. destruct (suuid (gns g) (fst id)); [|discriminate Y3].
           rewrite EU. injection Y3 as <-. reflexivity.
        -- rewrite SD, (eqb_r ent_eqb ent_eqb_eq), ED, Y4. reflexivity.
      * apply (synced_eq g); auto; [rewrite ND, X; reflexivity|unfold g'; cbn [g_sv]; rewrite MM, X; reflexivity|].
        intros _. unfold g'. cbn [g_sv]. rewrite SD, X, app_nil_r. reflexivity.
    + intros x n GX. rewrite ND in GX. destruct (ent_eqb x id); [|eauto]. injection GX as <-. exact (C _ _ GN).
    + intros x u X. rewrite ES in X. eauto.
    + intros d X. specialize (G _ X). destruct d; [exact G|]. rewrite ES. exact G.
    + intros d x n X GX. rewrite ND in GX. destruct (ent_eqb x id); [|eauto]. injection GX as <-. exact (H _ _ _ X GN).
  - intros x. destruct (ent_dec x id) as [->|N].
    + unfold WholeInv.trans. rewrite GN, ND, (eqb_r ent_eqb ent_eqb_eq). split; [intros []|]. right. exists (BStmt (RAlter k true)), (BoStmt RoOk). split; [cbn; auto|].
      unfold gview at 2. rewrite UU. unfold gview, bare. cbn [bstep b_m b_fl b_file b_tasks b_torn b_bad nd_m nd_fl nd_file]. rewrite NF, RS. reflexivity.
    + apply trans_still.
      * intros n GX. exists n. rewrite ND, (eqb_f ent_eqb ent_eqb_eq) by exact N. auto.
      * rewrite ND, (eqb_f ent_eqb ent_eqb_eq) by exact N. auto.
      * apply creates_not. exact Logic.I.
      * intros l. apply own_not. left. congruence.
Qed.

(** *** restart *)
Lemma boot_keeps key salt sv key' salt' w : had key salt sv -> boot hash verify key' salt' (w_log (sv_w sv)) = Some w ->
  n_models (w_ns w) = n_models (w_ns (sv_w sv)) /\ (forall k, suuid (w_ns w) k = suuid (w_ns (sv_w sv)) k) /\ sdl (w_log w) = sdl (w_log (sv_w sv)).
Proof.
  intros (l & H & ND & NF) E. destruct (hist_inv _ _ _ order_perm _ _ _ _ H ND NF) as [[_ _ (n' & ER & R)] _].
  assert (SU : forall k, suuid n' k = suuid (w_ns (sv_w sv)) k).
  { intros k. unfold suuid. destruct (aget bseq k (n_spaces (w_ns (sv_w sv)))) as [s|] eqn:G.
    - destruct (rel_get_lr _ _ _ _ R G) as (s' & -> & -> & _). reflexivity.
    - apply (aget_none bseq bseq_eq) in G. rewrite (rel_keys _ _ (proj1 R)) in G. apply (aget_none bseq bseq_eq) in G. rewrite G. reflexivity. }
  destruct R as (_ & HM & _).
  apply boot_cases in E as (n & ER2 & [(-> & _)|(h0 & _ & _ & ->)]); rewrite ER in ER2; injection ER2 as <-; cbn [w_ns w_log set_users n_models n_spaces].
  - auto.
  - split; [auto|]. split; [intros k; apply SU|]. rewrite sdl_snoc. reflexivity.
Qed.

Lemma restart_step key salt h g key' salt' g' r : whole key salt h g -> gstep g (GRestart key' salt') = Some (g', r) ->
  whole key salt (h ++ [(GRestart key' salt', r)]) g' /\ forall id, trans id g g' (GRestart key' salt') r.
Proof.
  intros W HS. pose proof (whole_more order hash verify key salt h g (GRestart key' salt', r) W) as W1. pose proof W1 as [A B C D E F G H].
  cbn [WholeModel.gstep] in HS. destruct (flushing g) eqn:FL; [injection HS as <- <-; split; [exact W1|intros id; apply trans_same; auto]|].
  destruct (GnsModel.step order hash verify (g_sv g) (OpRestart key' salt')) as [[sv' out]|] eqn:ST; [|discriminate HS].
  assert (HI : had key salt sv').
  { destruct A as (l & A1 & A2 & A3). exists (l ++ [(OpRestart key' salt', out)]). split; [econstructor; eassumption|].
    split; apply Forall_app; split; auto; constructor; auto; exact Logic.I. }
  cbn [GnsModel.step] in ST. destruct (boot hash verify key' salt' (glog g)) as [w|] eqn:BO; [|discriminate ST]. injection ST as <- _.
  destruct (boot_keeps _ _ _ _ _ _ A BO) as (EM & ES & EL). cbn [sv_w] in HS.
  destruct (load_nodes _ _ _ _) as [nodes|] eqn:LN; [|discriminate HS]. injection HS as <- <-.
  set (files' := map _ (g_files g)). assert (FM : forall f, aget fid_eqb f files' = match aget fid_eqb f (g_files g) with Some d => Some (mk_df (df_bs d) false (df_bad d)) | None => None end).
  { intros f. exact (aget_map fid_eqb (fun d => mk_df (df_bs d) false (df_bad d)) (g_files g) f). }
  set (g' := mk_gst (mk_server w []) nodes files' [] []).
  assert (LG : forall id, match aget ent_eqb id (g_nodes g) with
    | None => aget ent_eqb id nodes = None
    | Some nd => exists m df, aget ent_eqb id nodes = Some (mk_node m None (nd_file nd)) /\ schema m = schema (nd_m nd) /\ nd_fl nd = None /\
        aget fid_eqb (nd_file nd) (g_files g) = Some df /\ df_bad df = false /\ apply_batches (reload_base (nd_m nd)) (df_bs df) = Some m
    end).
  { intros id. pose proof (load_nodes_get _ _ _ _ _ LN id) as LG. rewrite EM in LG. specialize (B id). unfold synced in B.
    destruct (aget ent_eqb id (g_nodes g)) as [nd|] eqn:GN, (aget ent_eqb id (n_models (gns g))) as [mm|] eqn:GM; try destruct B; [|exact LG].
    destruct LG as (f & lay & df & m & L1 & L2 & L3 & L4 & L5). destruct H1 as (Y2 & Y3 & Y4).
    rewrite (file_of_eq (gns g)) in L1; [|apply ES|rewrite EM; reflexivity]. rewrite Y3 in L1. injection L1 as <- <-.
    exists m, df. split; [exact L5|]. change (fold_left sds_event (glog g) []) with (sdl (glog g)) in L4. rewrite <- Y4, <- H0 in L4.
    split; [exact (batches_schema _ _ _ L4)|]. split; [exact (flushing_none _ _ _ FL GN)|]. auto. }
  split.
  - constructor; unfold g'; cbn [g_sv g_nodes g_files g_tasks g_dels sv_w]; auto.
    + intros id. fold g'. specialize (LG id). unfold synced. specialize (B id). unfold synced in B. unfold g'. cbn [g_nodes g_sv sv_w]. rewrite EM, EL.
      destruct (aget ent_eqb id (g_nodes g)) as [nd|] eqn:GN; [|rewrite LG; exact B].
      destruct LG as (m & df & -> & SC & _). destruct (aget ent_eqb id (n_models (gns g))) as [mm|] eqn:GM; [|exact B].
      destruct B as (Y1 & Y2 & Y3 & Y4). unfold schema in SC. injection SC as S1 S2. cbn [nd_m nd_file]. unfold sver in *. rewrite S1, S2.
      rewrite (file_of_eq (gns g)); [auto|apply ES|rewrite EM; reflexivity].
    + intros id nd GN. specialize (LG id). destruct (aget ent_eqb id (g_nodes g)) as [nd0|] eqn:GN0; [|congruence].
      destruct LG as (m & df & L1 & _ & _ & L2 & _). rewrite GN in L1. injection L1 as ->. cbn [nd_file]. rewrite FM, L2. discriminate.
    + intros f d X. rewrite FM in X. destruct (aget fid_eqb f (g_files g)) eqn:Y; [eauto|discriminate X].
    + intros k u X. rewrite ES in X. eauto.
    + intros t [].
    + intros d [].
    + intros d id nd [].
  - intros id. specialize (LG id). unfold WholeInv.trans. unfold g'. cbn [g_nodes]. destruct (aget ent_eqb id (g_nodes g)) as [nd|] eqn:GN; [|rewrite LG; intros []].
    destruct LG as (m & df & -> & SC & NF & L2 & L3 & L4). split; [intros []|]. right. exists BRestart, BoDone. split; [cbn; auto|].
    unfold gview, bare, file_at. cbn [nd_file nd_m nd_fl g_files g_tasks]. rewrite FM, L2. cbn [df_bs df_torn df_bad bstep b_m b_fl b_file b_tasks b_torn b_bad].
    rewrite NF, L3, L4. reflexivity.
Qed.
End Ddl.
