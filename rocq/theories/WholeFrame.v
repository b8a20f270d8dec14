(** What an event does not touch, and models on which no statement has run. *)
From Coq Require Import Strings.String List NArith Bool Arith Lia Permutation.
From Verif Require Import Bytes AMap DataModel CodecModel GnsCodecModel DictModel GnsModel GnsProofs GnsHist RowModel BatchModel BatchProofs BatchTable UpgradeModel UpgradeSteps
  WholeModel WholeSpec WholeProofs WholeSteps WholeInv WholeDdl WholeHist.
Import ListNotations.
Local Open Scope N_scope.

Section Frame.
Variable farith : aop -> N -> N -> N.
Variable order : fieldmap -> fieldmap.
Variable hash : bytes -> N -> bytes.
Variable verify : bytes -> bytes -> bool.
Hypothesis order_perm : forall l, Permutation (order l) l.

Notation gstep := (gstep farith order hash verify).
Notation gns g := (w_ns (sv_w (g_sv g))).
Notation whole := (whole order hash verify).

(** an event about other things leaves the node alone *)
Lemma node_frame key salt h g o g' r id : whole key salt h g -> usual (o, r) -> gstep g o = Some (g', r) -> ~ concerns g o id ->
  aget ent_eqb id (g_nodes g') = aget ent_eqb id (g_nodes g).
Proof using order_perm.
  intros W US HS NC.
  assert (PB : forall i nd s g0, i <> id -> g_nodes g0 = g_nodes g -> aget ent_eqb id (g_nodes (put_back i nd s g0)) = aget ent_eqb id (g_nodes g)).
  { intros i nd s g0 X E. unfold put_back. cbn [g_nodes]. rewrite E. apply (aget_put_other ent_eqb ent_eqb_eq). auto. }
  destruct o as [u p|i en s|i i' q|i'|i|i' w|i' w|i' u|i ok| |key' salt']; cbn [concerns] in NC; cbn [WholeModel.gstep] in HS.
  - destruct (GnsModel.step _ _ _ _ _) as [[sv' out]|]; [|discriminate HS]. injection HS as <- <-. reflexivity.
  - destruct (wants_models s && flushing g) eqn:WF; [injection HS as <- <-; reflexivity|].
    destruct (GnsModel.step order hash verify (g_sv g) (OpStmt i (seen g en s) s)) as [[sv' out]|] eqn:ST; [|injection HS as <- <-; auto].
    destruct out as [b|o|]; try (injection HS as <- <-; reflexivity). injection HS as <- <-.
    cbn [GnsModel.step] in ST. destruct (nth_error _ i) as [se|]; [|discriminate ST].
    destruct (exec_stmt order hash se (seen g en s) (sv_w (g_sv g)) s) as [w' o'] eqn:EX. injection ST as <- ->.
    destruct (whole_inv order hash verify order_perm _ _ _ _ W) as [WW WL].
    assert (NFD : ~ failed_forced_drop s o) by (unfold failed_forced_drop, usual in *; destruct s as [| |? [] ?| | | | | | |]; auto).
    pose proof (exec_change order hash se (seen g en s) (sv_w (g_sv g)) s w' o WW WL EX NFD) as CH. clear EX.
    assert (ST : match s with SDropModel _ _ _ | SDropSpace _ _ _ => True | _ => False end -> aget ent_eqb id (n_models (w_ns w')) = aget ent_eqb id (n_models (gns g))).
    { intros K. inversion CH as [s0 o0 C1 C2 C3 C4|k p nx o0 C1 C2 C3 C4|x fs p nx o0 lay C0 C1 C2 C3 C4 C5 C6 C7|x f ex o0 m C0 C1 C2 C3 C4|k f ex o0 C0 C1 C2 C3 C4|x k m m' ds C0 C1 C2 C3 C4];
        subst; try destruct K.
      - rewrite C1. reflexivity.
      - rewrite C2. apply (aget_del_other ent_eqb ent_eqb_eq). cbn [concerns] in NC. auto.
      - rewrite C2. destruct (bseq k (fst id)) eqn:X; [|reflexivity]. apply bseq_eq in X. destruct (NC X). }
    assert (SG : match s with SDropModel _ _ _ | SDropSpace _ _ _ => True | _ => False end ->
      aget ent_eqb id (still (w_ns w') (g_nodes g)) = aget ent_eqb id (g_nodes g)).
    { intros K. rewrite still_get, (ST K). pose proof (wo_sync _ _ _ _ _ _ _ W id) as SY. unfold synced in SY.
      destruct (aget ent_eqb id (g_nodes g)), (aget ent_eqb id (n_models (gns g))); try destruct SY; reflexivity. }
    destruct s as [k p nx|k p|k f ex|x fs p nx|x k|x f ex|u op|u op|u|]; cbn [effect]; try reflexivity.
    + destruct (did o); [|reflexivity]. cbn [g_nodes sv_w]. apply SG. exact Logic.I.
    + destruct (did o).
      * destruct (aget ent_eqb x _); [|reflexivity]. cbn [g_nodes]. apply (aget_put_other ent_eqb ent_eqb_eq). auto.
      * destruct o as [|b|e|]; try reflexivity. destruct e; try reflexivity. destruct (e_init _); reflexivity.
    + destruct o as [|b|e|]; try reflexivity. destruct (aget ent_eqb x (g_nodes g)); [|reflexivity]. cbn [g_nodes]. apply (aget_put_other ent_eqb ent_eqb_eq). auto.
    + destruct (did o); [|reflexivity]. cbn [g_nodes sv_w]. apply SG. exact Logic.I.
  - destruct (nth_error _ i); [|injection HS as <- <-; reflexivity]. destruct (negb _); [injection HS as <- <-; reflexivity|].
    destruct (aget ent_eqb i' (g_nodes g)) as [nd|]; [|injection HS as <- <-; reflexivity].
    destruct (rstep _ _ _ q) as [m x]. injection HS as <- <-. cbn [g_nodes]. apply (aget_put_other ent_eqb ent_eqb_eq). auto.
  - destruct (aget ent_eqb i' (g_nodes g)) as [nd|]; [|injection HS as <- <-; reflexivity].
    destruct (bstep _ _ _ _) as [s x]. injection HS as <- <-. apply PB; auto.
  - destruct (nth_error (g_tasks g) i) as [t|]; [|injection HS as <- <-; reflexivity].
    destruct (aget ent_eqb (wt_id t) (g_nodes g)) as [nd|]; [|injection HS as <- <-; reflexivity].
    destruct (negb _); [injection HS as <- <-; reflexivity|]. destruct (nd_fl nd); [injection HS as <- <-; reflexivity|].
    destruct (bstep _ _ _ _) as [s x]. injection HS as <- <-. apply PB; auto.
  - destruct (aget ent_eqb i' (g_nodes g)) as [nd|]; [|injection HS as <- <-; reflexivity].
    destruct (bstep _ _ _ _) as [s x]. injection HS as <- <-. apply PB; auto.
  - destruct (aget ent_eqb i' (g_nodes g)) as [nd|]; [|injection HS as <- <-; reflexivity].
    destruct (bstep _ _ _ _) as [s x]. injection HS as <- <-. apply PB; auto.
  - destruct (aget ent_eqb i' (g_nodes g)) as [nd|]; [|injection HS as <- <-; reflexivity]. destruct (negb _); [injection HS as <- <-; reflexivity|].
    destruct (bstep _ _ _ _) as [s x]. injection HS as <- <-. apply PB; auto.
  - destruct (nth_error (g_dels g) i) as [d|]; [|injection HS as <- <-; reflexivity]. destruct ok; injection HS as <- <-; reflexivity.
  - destruct (GnsModel.step _ _ _ _ _) as [[sv' out]|]; [|discriminate HS]. injection HS as <- <-. reflexivity.
  - destruct (NC Logic.I).
Qed.

(** ... and its file *)
Lemma file_frame key salt h g o g' r id nd : whole key salt h g -> usual (o, r) -> NoDup (used (h ++ [(o, r)])) -> gstep g o = Some (g', r) -> ~ concerns g o id ->
  aget ent_eqb id (g_nodes g) = Some nd -> aget fid_eqb (nd_file nd) (g_files g') = aget fid_eqb (nd_file nd) (g_files g).
Proof using order_perm.
  intros W US NU HS NC GN.
  assert (PB : forall i ndi s g0, i <> id -> aget ent_eqb i (g_nodes g) = Some ndi -> g_files g0 = g_files g ->
    aget fid_eqb (nd_file nd) (g_files (put_back i ndi s g0)) = aget fid_eqb (nd_file nd) (g_files g)).
  { intros i ndi s g0 X GI E. unfold put_back. cbn [g_files]. rewrite E. destruct (aget fid_eqb (nd_file ndi) (g_files g)); [|reflexivity].
    apply (aget_put_other fid_eqb fid_eqb_eq). apply (files_differ order hash verify key salt h g id i nd ndi W GN GI). auto. }
  destruct o as [u p|i en s|i i' q|i'|i|i' w|i' w|i' u|i ok| |key' salt']; cbn [concerns] in NC; cbn [WholeModel.gstep] in HS.
  - destruct (GnsModel.step _ _ _ _ _) as [[sv' out]|]; [|discriminate HS]. injection HS as <- <-. reflexivity.
  - destruct (wants_models s && flushing g) eqn:WF; [injection HS as <- <-; reflexivity|].
    destruct (GnsModel.step order hash verify (g_sv g) (OpStmt i (seen g en s) s)) as [[sv' out]|] eqn:ST; [|injection HS as <- <-; auto].
    destruct out as [b|o|]; try (injection HS as <- <-; reflexivity). injection HS as <- <-. pose proof (fresh_uuid h i en s o NU) as FR.
    destruct s as [k p nx|k p|k f ex|x fs p nx|x k|x f ex|u op|u op|u|]; cbn [effect]; try reflexivity.
    + destruct (did o); reflexivity.
    + assert (NE : new_fid x (e_uuid en) (gns g) <> nd_file nd).
      { intros E. destruct FR as [_ FR]. apply FR. destruct (aget fid_eqb (nd_file nd) (g_files g)) as [d|] eqn:GF.
        - pose proof (wo_files _ _ _ _ _ _ _ W _ _ GF) as X. rewrite <- E in X. exact X.
        - destruct (wo_file _ _ _ _ _ _ _ W _ _ GN GF). }
      assert (P : forall (d : dfile) (l : list (fid * dfile)), aget fid_eqb (nd_file nd) (aput fid_eqb (new_fid x (e_uuid en) (gns g)) d l) = aget fid_eqb (nd_file nd) l) by
        (intros d l; apply (aget_put_other fid_eqb fid_eqb_eq); auto).
      destruct (did o).
      * destruct (aget ent_eqb x _); [|reflexivity]. cbn [g_files]. apply P.
      * destruct o as [|b|e|]; try reflexivity. destruct e; try reflexivity. destruct (e_init _); [|reflexivity]. cbn [g_files]. apply P.
    + destruct o as [|b|e|]; try reflexivity. destruct (aget ent_eqb x (g_nodes g)); reflexivity.
    + destruct (did o); reflexivity.
  - destruct (nth_error _ i); [|injection HS as <- <-; reflexivity]. destruct (negb _); [injection HS as <- <-; reflexivity|].
    destruct (aget ent_eqb i' (g_nodes g)) as [ndi|]; [|injection HS as <- <-; reflexivity].
    destruct (rstep _ _ _ q) as [m x]. injection HS as <- <-. reflexivity.
  - destruct (aget ent_eqb i' (g_nodes g)) as [ndi|] eqn:GI; [|injection HS as <- <-; reflexivity].
    destruct (bstep _ _ _ _) as [s x]. injection HS as <- <-. apply PB; auto.
  - destruct (nth_error (g_tasks g) i) as [t|]; [|injection HS as <- <-; reflexivity].
    destruct (aget ent_eqb (wt_id t) (g_nodes g)) as [ndi|] eqn:GI; [|injection HS as <- <-; reflexivity].
    destruct (negb _); [injection HS as <- <-; reflexivity|]. destruct (nd_fl ndi); [injection HS as <- <-; reflexivity|].
    destruct (bstep _ _ _ _) as [s x]. injection HS as <- <-. apply PB; auto.
  - destruct (aget ent_eqb i' (g_nodes g)) as [ndi|] eqn:GI; [|injection HS as <- <-; reflexivity].
    destruct (bstep _ _ _ _) as [s x]. injection HS as <- <-. apply PB; auto.
  - destruct (aget ent_eqb i' (g_nodes g)) as [ndi|] eqn:GI; [|injection HS as <- <-; reflexivity].
    destruct (bstep _ _ _ _) as [s x]. injection HS as <- <-. apply PB; auto.
  - destruct (aget ent_eqb i' (g_nodes g)) as [ndi|] eqn:GI; [|injection HS as <- <-; reflexivity]. destruct (negb _); [injection HS as <- <-; reflexivity|].
    destruct (bstep _ _ _ _) as [s x]. injection HS as <- <-. apply PB; auto.
  - destruct (nth_error (g_dels g) i) as [d|] eqn:ND; [|injection HS as <- <-; reflexivity]. destruct ok; injection HS as <- <-; [|reflexivity]. cbn [g_files].
    rewrite (aget_filter fid_eqb fid_eqb_eq (fun f => negb (hit d f))). rewrite (wo_hit _ _ _ _ _ _ _ W d id nd (nth_error_In _ _ ND) GN). reflexivity.
  - destruct (GnsModel.step _ _ _ _ _) as [[sv' out]|]; [|discriminate HS]. injection HS as <- <-. reflexivity.
  - destruct (NC Logic.I).
Qed.

(** ** A model on which no statement has run *)
Definition blank (s : bst) : Prop :=
  m_idx (b_m s) = [] /\ m_objs (b_m s) = [] /\ m_queue (b_m s) = [] /\ m_qsize (b_m s) = 0 /\ b_file s = [] /\ b_fl s = None /\ Forall (eq 0) (b_tasks s).

Lemma blank_hist lay h s : bhist farith order (bst_new lay) h s -> stmts h = [] -> blank s.
Proof using.
  intros H. remember (bst_new lay) as s0 eqn:E0. induction H as [s|s h s1 o s2 r H IH HS N1 N2 N3]; intros NS.
  - subst s. unfold blank. cbn. auto 10.
  - unfold stmts in NS. rewrite flat_map_app in NS. apply app_eq_nil in NS as [NS1 NS2]. destruct (IH E0 NS1) as (B1 & B2 & B3 & B4 & B5 & B6 & B7). clear IH.
    destruct o as [q| |i|w|w| |]; cbn [bstep] in HS; rewrite ?B6, ?B5, ?B3, ?B4 in HS.
    + exfalso. destruct q; destruct (rstep farith order (b_m s1) _) as [m x]; injection HS as <- <-; discriminate NS2.
    + injection HS as <- <-. unfold blank. cbn. repeat split; auto. apply Forall_app. auto.
    + destruct (nth_error (b_tasks s1) i) as [n|] eqn:NT; [|injection HS as <- <-; unfold blank; auto 10].
      assert (n = 0) as -> by (symmetry; eapply Forall_forall in B7; [exact B7|eapply nth_error_In; exact NT]).
      assert (DN : Forall (eq 0) (del_nth i (b_tasks s1))).
      { apply Forall_forall. intros x X. apply del_nth_in in X. eapply Forall_forall in B7; eauto. }
      destruct (m_iffy (b_m s1)); [|cbn in HS]; injection HS as <- <-; unfold blank; cbn; repeat split; auto. apply Forall_app. auto.
    + injection HS as <- <-. unfold blank. auto 10.
    + injection HS as <- <-. unfold blank. auto 10.
    + destruct (b_torn s1); injection HS as <- <-; unfold blank; cbn; auto 10.
    + destruct (b_bad s1); [injection HS as <- <-; unfold blank; auto 10|]. cbn in HS. injection HS as <- <-. unfold blank. cbn. auto 10.
Qed.
End Frame.
