(** The invariant of the whole server, and what an event does to one model. *)
From Coq Require Import Strings.String List NArith Bool Arith Lia Permutation.
From Verif Require Import Bytes AMap DataModel CodecModel GnsCodecModel DictModel GnsModel GnsProofs GnsHist RowModel BatchModel BatchTable UpgradeModel UpgradeSteps WholeModel WholeSpec WholeProofs WholeSteps.
Import ListNotations.
Local Open Scope N_scope.

(** the tasks of a model, and the machine of BatchModel.v inside the server *)
Definition mine (id : ent) (u : N) (t : wtask) : bool := ent_eqb id (wt_id t) && (wt_uuid t =? u).
Definition tof (id : ent) (u : N) (l : list wtask) : list N := map wt_n (filter (mine id u) l).
Definition gview (g : gst) (id : ent) (nd : node) : bst := bare g nd (tof id (nd_uuid nd) (g_tasks g)).

Lemma tof_app id u l1 l2 : tof id u (l1 ++ l2) = tof id u l1 ++ tof id u l2.
Proof. unfold tof. rewrite filter_app, map_app. reflexivity. Qed.
Lemma tof_own id u ns : tof id u (map (mk_wt id u) ns) = ns.
Proof.
  unfold tof. induction ns as [|n ns IH]; [reflexivity|]. cbn [map filter]. unfold mine at 1. cbn [wt_id wt_uuid].
  rewrite (eqb_r ent_eqb ent_eqb_eq), N.eqb_refl. cbn [andb map wt_n]. rewrite IH. reflexivity.
Qed.
Lemma tof_none id u l : (forall t, In t l -> mine id u t = false) -> tof id u l = [].
Proof.
  unfold tof. induction l as [|t l IH]; intros H; [reflexivity|]. cbn [filter]. rewrite H by (left; reflexivity).
  apply IH. intros x X. apply H. right. exact X.
Qed.
Lemma tof_other id u i n ns : id <> i -> tof id u (map (mk_wt i n) ns) = [].
Proof.
  intros N. apply tof_none. intros t I. apply in_map_iff in I as (x & <- & _). unfold mine. cbn [wt_id].
  rewrite (eqb_f ent_eqb ent_eqb_eq) by exact N. reflexivity.
Qed.

Section Inv.
Variable farith : aop -> N -> N -> N.
Variable order : fieldmap -> fieldmap.
Variable hash : bytes -> N -> bytes.
Variable verify : bytes -> bytes -> bool.
Hypothesis order_perm : forall l, Permutation (order l) l.

Notation gstep := (gstep farith order hash verify).
Notation gns g := (w_ns (sv_w (g_sv g))).
Notation glog g := (w_log (sv_w (g_sv g))).

(** a model in the index of the rows and in the namespace *)
Definition synced (g : gst) (id : ent) : Prop :=
  match aget ent_eqb id (g_nodes g), aget ent_eqb id (n_models (gns g)) with
  | Some nd, Some mm => m_lay (nd_m nd) = md_lay mm /\ N.of_nat (sver (nd_m nd)) = md_ver mm /\
      file_of (gns g) id = Some (nd_file nd, md_lay mm) /\ m_sd (nd_m nd) = sds_get (sdl (glog g)) id
  | None, None => True
  | _, _ => False
  end.

Record whole (key : bytes) (salt : N) (h : list (gop * gout)) (g : gst) : Prop := {
  wo_hist : exists l, hist order hash verify key salt l (g_sv g) /\ Forall op_nd l /\ Forall no_failed_drop l;
  wo_sync : forall id, synced g id;
  wo_file : forall id nd, aget ent_eqb id (g_nodes g) = Some nd -> aget fid_eqb (nd_file nd) (g_files g) <> None;
  wo_files : forall f d, aget fid_eqb f (g_files g) = Some d -> In (snd (snd f)) (used h);
  wo_spaces : forall k u, suuid (gns g) k = Some u -> In u (used h);
  wo_tasks : forall t, In t (g_tasks g) -> In (wt_uuid t) (used h);
  wo_dels : forall d, In d (g_dels g) ->
    match d with DelModel f => In (snd (snd f)) (used h) | DelSpace k u => In u (used h) /\ suuid (gns g) k <> Some u end;
  wo_hit : forall d id nd, In d (g_dels g) -> aget ent_eqb id (g_nodes g) = Some nd -> hit d (nd_file nd) = false
}.

Lemma synced_some g id nd : synced g id -> aget ent_eqb id (g_nodes g) = Some nd ->
  exists mm, aget ent_eqb id (n_models (gns g)) = Some mm /\ m_lay (nd_m nd) = md_lay mm /\ N.of_nat (sver (nd_m nd)) = md_ver mm /\
    file_of (gns g) id = Some (nd_file nd, md_lay mm) /\ m_sd (nd_m nd) = sds_get (sdl (glog g)) id.
Proof. unfold synced. intros Y G. rewrite G in Y. destruct (aget ent_eqb id (n_models (gns g))) as [mm|]; [|destruct Y]. exists mm. auto. Qed.

Lemma file_named n id f lay : file_of n id = Some (f, lay) -> fst (fst f) = fst id /\ fst (snd f) = snd id /\ snd (snd f) = lo_uuid lay /\ suuid n (fst id) = Some (snd (fst f)).
Proof.
  rewrite file_of_suuid. destruct (suuid n (fst id)); [|intros D; discriminate D]. destruct (aget _ _ _); intros E; [|discriminate E].
  injection E as <- <-. auto.
Qed.
Lemma node_file key salt h g id nd : whole key salt h g -> aget ent_eqb id (g_nodes g) = Some nd ->
  fst (fst (nd_file nd)) = fst id /\ fst (snd (nd_file nd)) = snd id /\ snd (snd (nd_file nd)) = nd_uuid nd /\
  suuid (gns g) (fst id) = Some (snd (fst (nd_file nd))).
Proof.
  intros W G. destruct (synced_some _ _ _ (wo_sync _ _ _ _ W id) G) as (mm & _ & E & _ & F & _).
  apply file_named in F. unfold nd_uuid. rewrite E. exact F.
Qed.
Lemma files_differ key salt h g id1 id2 nd1 nd2 : whole key salt h g -> aget ent_eqb id1 (g_nodes g) = Some nd1 ->
  aget ent_eqb id2 (g_nodes g) = Some nd2 -> id1 <> id2 -> nd_file nd1 <> nd_file nd2.
Proof.
  intros W G1 G2 N E. apply (node_file _ _ _ _ _ _ W) in G1 as (A1 & B1 & _). apply (node_file _ _ _ _ _ _ W) in G2 as (A2 & B2 & _).
  apply N. destruct id1, id2. cbn [fst snd] in *. congruence.
Qed.
Lemma uuid_used key salt h g id nd : whole key salt h g -> aget ent_eqb id (g_nodes g) = Some nd -> In (nd_uuid nd) (used h).
Proof.
  intros W G. destruct (node_file _ _ _ _ _ _ W G) as (_ & _ & <- & _).
  destruct (aget fid_eqb (nd_file nd) (g_files g)) as [d|] eqn:F; [|destruct (wo_file _ _ _ _ W _ _ G F)].
  eapply wo_files; eassumption.
Qed.

Lemma used_snoc h x : used (h ++ [x]) = used h ++ used1 x.
Proof. unfold used. rewrite flat_map_app. cbn [flat_map]. rewrite app_nil_r. reflexivity. Qed.
Lemma used_more h x u : In u (used h) -> In u (used (h ++ [x])).
Proof. intros I. rewrite used_snoc. apply in_or_app. left. exact I. Qed.
Lemma whole_more key salt h g x : whole key salt h g -> whole key salt (h ++ [x]) g.
Proof.
  intros [A B C D E F G H]. constructor; auto.
  - intros f d X. apply used_more. eauto.
  - intros k u X. apply used_more. eauto.
  - intros t X. apply used_more. eauto.
  - intros d X. specialize (G _ X). destruct d; [apply used_more; exact G|destruct G; split; [apply used_more|]; assumption].
Qed.

(** ** Events of one model *)
Definition induced (id : ent) (o : gop) (r : gout) (bo : bop) (br : bout) : Prop :=
  match o, r with
  | GDml _ i q, GoStmt x => i = id /\ bo = BStmt q /\ br = BoStmt x
  | GDdl _ _ (SAlterModel i k), GoDdl OEmpty => i = id /\ bo = BStmt (RAlter k true) /\ br = BoStmt RoOk
  | GTake i, GoFlush x => i = id /\ bo = BTake /\ br = x
  | GBegin _, GoFlush x => (exists j, bo = BBegin j) /\ br = x
  | GStep i w, GoFlush x => i = id /\ bo = BStep w /\ br = x
  | GEnd i w, GoFlush x => i = id /\ bo = BEnd w /\ br = x
  | GRecover i _, GoFlush x => i = id /\ bo = BRecover /\ br = x
  | GRestart _ _, GoDone => bo = BRestart /\ br = BoDone
  | _, _ => False
  end.

Definition trans (id : ent) (g g' : gst) (o : gop) (r : gout) : Prop :=
  match aget ent_eqb id (g_nodes g), aget ent_eqb id (g_nodes g') with
  | Some nd, Some nd' => ~ creates id (o, r) /\
      ((gview g' id nd' = gview g id nd /\ forall l, own1 id l (o, r) = l) \/
       exists bo br, induced id o r bo br /\ bstep farith order (gview g id nd) bo = (gview g' id nd', br))
  | None, Some nd' => exists i en fs props nx out lay,
      o = GDdl i en (SCreateModel id fs props nx) /\ r = GoDdl out /\ creates id (o, r) /\
      process_create_model (e_uuid en) fs props = inr lay /\ gview g' id nd' = bst_new lay
  | _, None => ~ creates id (o, r)
  end.

Lemma own_induced id o r bo br l : induced id o r bo br -> own1 id l (o, r) = l ++ stmts [(bo, br)].
Proof.
  unfold induced. destruct o as [u p|i en s|i id' q|id'|i|id' w|id' w|id' u|i ok| |k z], r as [x|x|x| |x| | |]; try (intros []; fail);
    try (intros (-> & -> & ->); cbn; rewrite ?app_nil_r; reflexivity); try (intros ([j ->] & ->); cbn; rewrite ?app_nil_r; reflexivity);
    try (intros (-> & ->); cbn; rewrite ?app_nil_r; reflexivity);
    try (destruct s; intros []; fail).
  - destruct s; try (intros []; fail). destruct x; try (intros []; fail). intros (-> & -> & ->). cbn.
    match goal with |- context [ent_dec ?a ?a] => destruct (ent_dec a a) as [_|X]; [reflexivity|destruct (X eq_refl)] end.
  - intros (-> & -> & ->). cbn. match goal with |- context [ent_dec ?a ?a] => destruct (ent_dec a a) as [_|X]; [reflexivity|destruct (X eq_refl)] end.
Qed.

(** *** the model stays as it is *)
Lemma trans_still id g g' o r : (forall nd, aget ent_eqb id (g_nodes g) = Some nd -> exists nd', aget ent_eqb id (g_nodes g') = Some nd' /\ gview g' id nd' = gview g id nd) ->
  (aget ent_eqb id (g_nodes g) = None -> aget ent_eqb id (g_nodes g') = None) ->
  ~ creates id (o, r) -> (forall l, own1 id l (o, r) = l) -> trans id g g' o r.
Proof.
  unfold trans. intros A B C D. destruct (aget ent_eqb id (g_nodes g)) as [nd|] eqn:G.
  - destruct (A _ eq_refl) as (nd' & -> & V). auto.
  - rewrite (B eq_refl). exact C.
Qed.
Lemma trans_same id g o r : ~ creates id (o, r) -> (forall l, own1 id l (o, r) = l) -> trans id g g o r.
Proof. intros C D. apply trans_still; auto. intros nd G. exists nd. auto. Qed.

(** *** an event of one model *)
Lemma local_whole key salt h g g' id nd nd' : whole key salt h g -> aget ent_eqb id (g_nodes g) = Some nd ->
  g_sv g' = g_sv g -> g_dels g' = g_dels g ->
  (forall x, aget ent_eqb x (g_nodes g') = if ent_eqb x id then Some nd' else aget ent_eqb x (g_nodes g)) ->
  schema (nd_m nd') = schema (nd_m nd) -> nd_file nd' = nd_file nd ->
  (forall f, aget fid_eqb f (g_files g') = None <-> aget fid_eqb f (g_files g) = None) ->
  (forall t, In t (g_tasks g') -> In t (g_tasks g) \/ wt_uuid t = nd_uuid nd) -> whole key salt h g'.
Proof.
  intros W G SV DL ND SC FL FI TS. pose proof W as [A B C D E F I J]. constructor; rewrite ?SV, ?DL; auto.
  - intros x. unfold synced. rewrite ND, SV. destruct (ent_eqb x id) eqn:X; [|apply B].
    apply ent_eqb_eq in X as ->. destruct (synced_some _ _ _ (B id) G) as (mm & -> & E1 & E2 & E3 & E4).
    unfold schema in SC. injection SC as Y1 Y2. unfold sver in *. rewrite Y1, Y2, FL. auto.
  - intros x n X Y. rewrite ND in X. apply FI in Y. destruct (ent_eqb x id) eqn:Z; [|exact (C _ _ X Y)].
    injection X as <-. rewrite FL in Y. exact (C _ _ G Y).
  - intros f d X. destruct (aget fid_eqb f (g_files g)) eqn:Y; [eauto|]. apply FI in Y. congruence.
  - intros t X. destruct (TS _ X) as [Y| ->]; [auto|]. eapply uuid_used; eassumption.
  - intros d x n X Y. rewrite ND in Y. destruct (ent_eqb x id) eqn:Z; [|eauto]. injection Y as <-. rewrite FL. eauto.
Qed.

Lemma gview_other key salt h g g' id nd x ndx : whole key salt h g -> aget ent_eqb id (g_nodes g) = Some nd ->
  (forall f, f <> nd_file nd -> aget fid_eqb f (g_files g') = aget fid_eqb f (g_files g)) ->
  x <> id -> aget ent_eqb x (g_nodes g) = Some ndx -> (forall u, tof x u (g_tasks g') = tof x u (g_tasks g)) -> gview g' x ndx = gview g x ndx.
Proof.
  intros W G FI N GX TS. unfold gview, bare, file_at. rewrite TS, FI; [reflexivity|]. eapply files_differ; eauto.
Qed.

(** the state after an event of one model *)

Lemma put_back_files id nd s g : aget fid_eqb (nd_file nd) (g_files g) <> None ->
  (forall f, aget fid_eqb f (g_files (put_back id nd s g)) = None <-> aget fid_eqb f (g_files g) = None) /\
  (forall f, f <> nd_file nd -> aget fid_eqb f (g_files (put_back id nd s g)) = aget fid_eqb f (g_files g)) /\
  aget fid_eqb (nd_file nd) (g_files (put_back id nd s g)) = Some (mk_df (b_file s) (b_torn s) (b_bad s)).
Proof.
  intros P. unfold put_back. cbn [g_files]. destruct (aget fid_eqb (nd_file nd) (g_files g)) eqn:E; [|contradiction].
  split; [|split].
  - intros f. destruct (fid_eqb f (nd_file nd)) eqn:X.
    + apply fid_eqb_eq in X as ->. rewrite (aget_put_same fid_eqb fid_eqb_eq), E. split; intros D; discriminate D.
    + rewrite (aget_put_other fid_eqb fid_eqb_eq); [tauto|]. intros ->. rewrite (eqb_r fid_eqb fid_eqb_eq) in X. discriminate X.
  - intros f X. apply (aget_put_other fid_eqb fid_eqb_eq). exact X.
  - apply (aget_put_same fid_eqb fid_eqb_eq).
Qed.
Lemma put_back_nodes id nd s g x : aget ent_eqb x (g_nodes (put_back id nd s g)) =
  if ent_eqb x id then Some (mk_node (b_m s) (b_fl s) (nd_file nd)) else aget ent_eqb x (g_nodes g).
Proof.
  unfold put_back. cbn [g_nodes]. destruct (ent_eqb x id) eqn:X.
  - apply ent_eqb_eq in X as ->. apply (aget_put_same ent_eqb ent_eqb_eq).
  - apply (aget_put_other ent_eqb ent_eqb_eq). intros ->. rewrite (eqb_r ent_eqb ent_eqb_eq) in X. discriminate X.
Qed.

Lemma put_back_ok key salt h g id nd s ts0 : whole key salt h g -> aget ent_eqb id (g_nodes g) = Some nd ->
  schema (b_m s) = schema (nd_m nd) -> (forall t, In t ts0 -> In t (g_tasks g)) ->
  (forall x u, x <> id -> tof x u ts0 = tof x u (g_tasks g)) ->
  let g' := put_back id nd s (mk_gst (g_sv g) (g_nodes g) (g_files g) ts0 (g_dels g)) in
  whole key salt h g' /\
  (forall x ndx, x <> id -> aget ent_eqb x (g_nodes g) = Some ndx -> aget ent_eqb x (g_nodes g') = Some ndx /\ gview g' x ndx = gview g x ndx) /\
  (forall x, x <> id -> aget ent_eqb x (g_nodes g) = None -> aget ent_eqb x (g_nodes g') = None) /\
  exists nd', aget ent_eqb id (g_nodes g') = Some nd' /\ gview g' id nd' = with_tasks (tof id (nd_uuid nd) ts0 ++ b_tasks s) s.
Proof.
  intros W G SC TS TO g'. pose proof (wo_file _ _ _ _ W _ _ G) as PF.
  destruct (put_back_files id nd s (mk_gst (g_sv g) (g_nodes g) (g_files g) ts0 (g_dels g)) PF) as (F1 & F2 & F3). fold g' in F1, F2, F3.
  assert (NN : forall x, x <> id -> ent_eqb x id = false) by (intros x X; apply (eqb_f ent_eqb ent_eqb_eq); exact X).
  assert (UU : nd_uuid (mk_node (b_m s) (b_fl s) (nd_file nd)) = nd_uuid nd).
  { unfold nd_uuid. cbn [nd_m]. unfold schema in SC. congruence. }
  split; [|split; [|split]].
  - eapply (local_whole key salt h g g' id nd _ W G); [reflexivity|reflexivity|intros x; exact (put_back_nodes id nd s (mk_gst (g_sv g) (g_nodes g) (g_files g) ts0 (g_dels g)) x)|exact SC|reflexivity|exact F1|].
    intros t I. apply in_app_or in I as [I|I]; [left; auto|right]. apply in_map_iff in I as (n & <- & _). reflexivity.
  - intros x ndx N GX. split; [unfold g'; rewrite put_back_nodes, (NN _ N); exact GX|].
    apply (gview_other _ _ _ _ g' id nd x ndx W G F2 N GX). intros u.
    unfold g', put_back. cbn [g_tasks]. rewrite tof_app, (tof_other _ _ _ _ _ N), app_nil_r. auto.
  - intros x N GX. unfold g'. rewrite put_back_nodes, (NN _ N). exact GX.
  - eexists. split; [unfold g'; rewrite put_back_nodes, (eqb_r ent_eqb ent_eqb_eq); reflexivity|].
    unfold gview, bare, file_at. rewrite UU. cbn [nd_file nd_m nd_fl]. rewrite F3. cbn [df_bs df_torn df_bad].
    unfold g', put_back. cbn [g_tasks]. rewrite tof_app, tof_own. reflexivity.
Qed.

(** two kinds: a step that does not look at the tasks, and the start of a flush *)
Lemma flush_step key salt h g id nd o bo s r : whole key salt h g -> aget ent_eqb id (g_nodes g) = Some nd -> task_free bo ->
  bstep farith order (bare g nd []) bo = (s, r) -> (forall i, ~ creates i (o, GoFlush r)) -> (forall i l, own1 i l (o, GoFlush r) = l) ->
  induced id o (GoFlush r) bo r ->
  whole key salt h (put_back id nd s g) /\ forall i, trans i g (put_back id nd s g) o (GoFlush r).
Proof.
  intros W G TF H NC NO IN. destruct g as [sv nodes files ts0 dels].
  set (g := mk_gst sv nodes files ts0 dels) in *.
  destruct (put_back_ok key salt h g id nd s ts0 W G) as (W' & V1 & V2 & nd' & G' & V').
  { apply (bstep_schema farith order (bare g nd []) bo s r); [|exact H]. destruct bo; try destruct TF; exact Logic.I. }
  { auto. } { auto. }
  change (mk_gst (g_sv g) (g_nodes g) (g_files g) ts0 (g_dels g)) with g in *.
  split; [exact W'|]. intros i. destruct (ent_dec i id) as [->|N].
  - unfold trans. rewrite G, G'. split; [apply NC|]. right. exists bo, r. split; [exact IN|]. rewrite V'.
    exact (bstep_tasks farith order (bare g nd []) bo (tof id (nd_uuid nd) ts0) s r TF eq_refl H).
  - apply trans_still; auto. intros ndx GX. exists ndx. apply V1; auto.
Qed.

Lemma begin_step key salt h g i t nd s r : whole key salt h g -> nth_error (g_tasks g) i = Some t ->
  aget ent_eqb (wt_id t) (g_nodes g) = Some nd -> nd_uuid nd = wt_uuid t -> nd_fl nd = None ->
  bstep farith order (bare g nd [wt_n t]) (BBegin 0) = (s, r) ->
  let g' := put_back (wt_id t) nd s (mk_gst (g_sv g) (g_nodes g) (g_files g) (del_nth i (g_tasks g)) (g_dels g)) in
  whole key salt h g' /\ forall id, trans id g g' (GBegin i) (GoFlush r).
Proof.
  intros W NT G U NF H g'.
  destruct (put_back_ok key salt h g (wt_id t) nd s (del_nth i (g_tasks g)) W G) as (W' & V1 & V2 & nd' & G' & V').
  { apply (bstep_schema farith order (bare g nd [wt_n t]) (BBegin 0) s r); [exact Logic.I|exact H]. }
  { intros x. apply del_nth_in. }
  { intros x u N. unfold tof. f_equal. apply (filter_del_no _ _ _ _ NT). unfold mine. rewrite (eqb_f ent_eqb ent_eqb_eq) by exact N. reflexivity. }
  fold g' in W', V1, V2, G', V'. split; [exact W'|]. intros id. destruct (ent_dec id (wt_id t)) as [->|N].
  - unfold trans. rewrite G, G'. split; [intros []|]. right.
    assert (M : mine (wt_id t) (nd_uuid nd) t = true).
    { unfold mine. rewrite (eqb_r ent_eqb ent_eqb_eq), U, N.eqb_refl. reflexivity. }
    destruct (filter_del_yes _ _ _ _ NT M) as [A1 A2].
    exists (BBegin (length (filter (mine (wt_id t) (nd_uuid nd)) (firstn i (g_tasks g))))), r.
    split; [cbn; eauto|]. rewrite V'. unfold tof at 1. rewrite A2, map_del_nth.
    apply (bstep_begin farith order (bare g nd [wt_n t]) _ (tof (wt_id t) (nd_uuid nd) (g_tasks g)) (wt_n t) s r eq_refl NF); [|exact H].
    unfold tof. rewrite nth_error_map, A1. reflexivity.
  - apply trans_still; auto. intros ndx GX. exists ndx. apply V1; auto.
Qed.

(** a task that nobody needs *)
Lemma gone_step key salt h g i t o r : whole key salt h g -> nth_error (g_tasks g) i = Some t ->
  (forall nd, aget ent_eqb (wt_id t) (g_nodes g) = Some nd -> nd_uuid nd <> wt_uuid t) ->
  (forall x, ~ creates x (o, r)) -> (forall x l, own1 x l (o, r) = l) ->
  let g' := mk_gst (g_sv g) (g_nodes g) (g_files g) (del_nth i (g_tasks g)) (g_dels g) in
  whole key salt h g' /\ forall id, trans id g g' o r.
Proof.
  intros W NT NG NC NO g'. split.
  - destruct W as [A B C D E F G H]. constructor; auto. intros x I. apply F. eapply del_nth_in; exact I.
  - intros id. apply trans_still; auto. intros nd GX. exists nd. split; [exact GX|]. unfold gview, bare, file_at. cbn [g_files g_tasks].
    assert (TE : tof id (nd_uuid nd) (del_nth i (g_tasks g)) = tof id (nd_uuid nd) (g_tasks g)).
    { unfold tof. f_equal. apply (filter_del_no _ _ _ _ NT). unfold mine.
      destruct (ent_eqb id (wt_id t)) eqn:E; [|reflexivity]. apply ent_eqb_eq in E as ->. cbn [andb]. apply N.eqb_neq. intros X. exact (NG _ GX (eq_sym X)). }
    unfold g'. cbn [g_tasks g_files]. rewrite TE. reflexivity.
Qed.

(** *** a data statement *)
Lemma dml_step key salt h g i id q nd m r : whole key salt h g -> aget ent_eqb id (g_nodes g) = Some nd -> is_dml q = true ->
  rstep farith order (nd_m nd) q = (m, r) ->
  let g' := mk_gst (g_sv g) (aput ent_eqb id (mk_node m (nd_fl nd) (nd_file nd)) (g_nodes g)) (g_files g) (g_tasks g) (g_dels g) in
  whole key salt h g' /\ forall x, trans x g g' (GDml i id q) (GoStmt r).
Proof.
  intros W G DM H g'. assert (SC : schema m = schema (nd_m nd)) by (pose proof (dml_schema farith order (nd_m nd) q DM) as X; rewrite H in X; exact X).
  assert (NN : forall x, aget ent_eqb x (g_nodes g') = if ent_eqb x id then Some (mk_node m (nd_fl nd) (nd_file nd)) else aget ent_eqb x (g_nodes g)).
  { intros x. unfold g'. cbn [g_nodes]. destruct (ent_eqb x id) eqn:X.
    - apply ent_eqb_eq in X as ->. apply (aget_put_same ent_eqb ent_eqb_eq).
    - apply (aget_put_other ent_eqb ent_eqb_eq). intros ->. rewrite (eqb_r ent_eqb ent_eqb_eq) in X. discriminate X. }
  split.
  - eapply (local_whole key salt h g g' id nd _ W G); [reflexivity|reflexivity|exact NN|exact SC|reflexivity|reflexivity|auto].
  - intros x. destruct (ent_dec x id) as [->|N].
    + unfold trans. rewrite G, NN, (eqb_r ent_eqb ent_eqb_eq). split; [intros []|]. right. exists (BStmt q), (BoStmt r). split; [cbn; auto|].
      assert (UU : nd_uuid (mk_node m (nd_fl nd) (nd_file nd)) = nd_uuid nd) by (unfold nd_uuid; cbn [nd_m]; unfold schema in SC; congruence).
      unfold gview at 2. rewrite UU. unfold gview, bare. cbn [bstep b_m b_fl b_file b_tasks b_torn b_bad nd_m nd_fl nd_file]. rewrite H.
      destruct q; try reflexivity. discriminate DM.
    + apply trans_still; [|intros GX; rewrite NN, (eqb_f ent_eqb ent_eqb_eq) by exact N; exact GX|intros []|].
      * intros ndx GX. exists ndx. rewrite NN, (eqb_f ent_eqb ent_eqb_eq) by exact N. auto.
      * intros l. cbn. destruct (ent_dec id x) as [->|_]; [destruct (N eq_refl)|reflexivity].
Qed.

(** *** only sessions and the state of the log writer *)
Lemma quiet_step key salt h g sv' o r : whole key salt h g -> w_ns (sv_w sv') = gns g -> w_log (sv_w sv') = glog g ->
  (exists l, hist order hash verify key salt l sv' /\ Forall op_nd l /\ Forall no_failed_drop l) ->
  (forall x, ~ creates x (o, r)) -> (forall x l, own1 x l (o, r) = l) ->
  let g' := mk_gst sv' (g_nodes g) (g_files g) (g_tasks g) (g_dels g) in
  whole key salt h g' /\ forall id, trans id g g' o r.
Proof.
  intros W E1 E2 HI NC NO g'. split.
  - destruct W as [A B C D E F G H]. constructor; unfold g'; cbn [g_sv g_nodes g_files g_tasks g_dels]; rewrite ?E1; auto.
    intros id. unfold synced. cbn [g_sv g_nodes]. rewrite E1, E2. apply B.
  - intros id. apply trans_still; auto. intros nd GX. exists nd. auto.
Qed.

(** *** the deletion of a directory *)
Lemma delete_step key salt h g i d ok : whole key salt h g -> nth_error (g_dels g) i = Some d ->
  let r := del_nth i (g_dels g) in
  let g' := if ok : bool then mk_gst (g_sv g) (g_nodes g) (filter (fun kf => negb (hit d (fst kf))) (g_files g)) (g_tasks g) r
            else mk_gst (g_sv g) (g_nodes g) (g_files g) (g_tasks g) (r ++ [d]) in
  whole key salt h g' /\ forall id, trans id g g' (GDelete i ok) GoDone.
Proof.
  intros W ND r g'. pose proof W as [A B C D E F G H]. pose proof (nth_error_In _ _ ND) as ID.
  assert (FA : forall f, aget fid_eqb f (filter (fun kf => negb (hit d (fst kf))) (g_files g)) = if negb (hit d f) then aget fid_eqb f (g_files g) else None).
  { intros f. exact (aget_filter fid_eqb fid_eqb_eq (fun f => negb (hit d f)) (g_files g) f). }
  assert (FN : forall id nd, aget ent_eqb id (g_nodes g) = Some nd -> aget fid_eqb (nd_file nd) (g_files g') = aget fid_eqb (nd_file nd) (g_files g)).
  { intros id nd GX. unfold g'. destruct ok; cbn [g_files]; [|reflexivity]. rewrite FA, (H _ _ _ ID GX). reflexivity. }
  split.
  - assert (RD : forall x, In x (g_dels g') -> In x (g_dels g)).
    { intros x. unfold g', r. destruct ok; cbn [g_dels]; [apply del_nth_in|]. intros I. apply in_app_or in I as [I|[<-|[]]]; [eapply del_nth_in; exact I|exact ID]. }
    assert (EQ : g_sv g' = g_sv g /\ g_nodes g' = g_nodes g /\ g_tasks g' = g_tasks g) by (unfold g'; destruct ok; auto).
    destruct EQ as (EQ1 & EQ2 & EQ3). constructor; rewrite ?EQ1, ?EQ2, ?EQ3; auto.
    + intros id. unfold synced. rewrite EQ1, EQ2. apply B.
    + intros id nd GX. rewrite (FN _ _ GX). apply C with (1 := GX).
    + intros f dd X. unfold g' in X. destruct ok; cbn [g_files] in X; [|eauto]. rewrite FA in X. destruct (negb _); [eauto|discriminate X].
    + intros x I. exact (G _ (RD _ I)).
    + intros x id nd I GX. apply (H _ _ _ (RD _ I) GX).
  - intros id. assert (EQ : g_nodes g' = g_nodes g /\ g_tasks g' = g_tasks g) by (unfold g'; destruct ok; auto). destruct EQ as (EQ2 & EQ3).
    apply trans_still; rewrite ?EQ2; auto. intros nd GX. exists nd. split; [exact GX|]. unfold gview, bare, file_at. rewrite (FN _ _ GX), EQ3. reflexivity.
Qed.
End Inv.
