(** Histories of the whole server, and the history of each model in them. *)
From Coq Require Import Strings.String List NArith Bool Arith Lia Permutation.
From Verif Require Import Bytes AMap DataModel CodecModel GnsCodecModel DictModel GnsModel GnsProofs GnsHist RowModel BatchModel BatchTable UpgradeModel UpgradeSteps WholeModel WholeSpec WholeProofs WholeSteps WholeInv WholeDdl.
Import ListNotations.
Local Open Scope N_scope.

Lemma create_uuid u fs props lay : process_create_model u fs props = inr lay -> lo_uuid lay = u.
Proof.
  unfold process_create_model. intros H.
  repeat match type of H with
    | (if ?x then _ else _) = _ => destruct x; try discriminate H
    | (match ?x with _ => _ end) = _ => destruct x; try discriminate H
    end; injection H as <-; reflexivity.
Qed.

Section Hist.
Variable farith : aop -> N -> N -> N.
Variable order : fieldmap -> fieldmap.
Variable hash : bytes -> N -> bytes.
Variable verify : bytes -> bytes -> bool.
Hypothesis order_perm : forall l, Permutation (order l) l.

Notation gstep := (gstep farith order hash verify).
Notation gns g := (w_ns (sv_w (g_sv g))).
Notation glog g := (w_log (sv_w (g_sv g))).
Notation whole := (whole order hash verify).
Notation trans := (trans farith order).
Notation had key salt sv := (exists l, hist order hash verify key salt l sv /\ Forall op_nd l /\ Forall no_failed_drop l).

Lemma whole_inv key salt h g : whole key salt h g -> ns_wf (gns g) /\ ns_link (gns g).
Proof.
  intros [(l & A1 & A2 & A3) _ _ _ _ _ _ _]. destruct (hist_inv _ _ _ order_perm _ _ _ _ A1 A2 A3) as [[A B _] _]. auto.
Qed.

Lemma seen_uuid g en s : e_uuid (seen g en s) = e_uuid en. Proof. destruct s; reflexivity. Qed.

Lemma fresh_uuid h i en s out : NoDup (used (h ++ [(GDdl i en s, GoDdl out)])) ->
  match s with SCreateSpace _ _ _ | SCreateModel _ _ _ _ => In (e_uuid en) (used (h ++ [(GDdl i en s, GoDdl out)])) /\ ~ In (e_uuid en) (used h) | _ => True end.
Proof.
  rewrite used_snoc. intros N.
  assert (X : used1 (GDdl i en s, GoDdl out) = [e_uuid en] -> In (e_uuid en) (used h ++ used1 (GDdl i en s, GoDdl out)) /\ ~ In (e_uuid en) (used h)).
  { intros E. rewrite E in N |- *. split; [apply in_or_app; right; left; reflexivity|].
    apply NoDup_remove in N as [_ N]. rewrite app_nil_r in N. exact N. }
  destruct s; try exact Logic.I; apply X; reflexivity.
Qed.

Lemma ddl_step key salt h g i en s g' r : whole key salt h g -> usual (GDdl i en s, r) -> NoDup (used (h ++ [(GDdl i en s, r)])) ->
  gstep g (GDdl i en s) = Some (g', r) -> whole key salt (h ++ [(GDdl i en s, r)]) g' /\ forall id, trans id g g' (GDdl i en s) r.
Proof.
  intros W US NU HS. pose proof (whole_more order hash verify key salt h g (GDdl i en s, r) W) as W1. cbn [WholeModel.gstep] in HS.
  assert (OFF : r = GoOff -> whole key salt (h ++ [(GDdl i en s, r)]) g /\ forall id, trans id g g (GDdl i en s) r).
  { intros ->. split; [exact W1|]. intros id. apply trans_same; [unfold creates; destruct s; intros []|intros l; unfold own1; destruct s; reflexivity]. }
  destruct (wants_models s && flushing g) eqn:WF; [injection HS as <- <-; auto|].
  destruct (GnsModel.step order hash verify (g_sv g) (OpStmt i (seen g en s) s)) as [[sv' out]|] eqn:ST; [|injection HS as <- <-; auto].
  destruct out as [b|o|]; try (injection HS as <- <-; auto; fail). injection HS as <- <-.
  assert (HI : had key salt sv').
  { destruct (wo_hist _ _ _ _ _ _ _ W) as (l & A1 & A2 & A3). exists (l ++ [(OpStmt i (seen g en s) s, OutStmt o)]). split; [econstructor; eassumption|].
    split; apply Forall_app; split; auto; constructor; auto.
    - unfold op_nd, usual in *. cbn [fst]. destruct s; cbn; auto.
    - unfold no_failed_drop, failed_forced_drop, usual in *. destruct s as [| |? [] ?| | | | | | |]; auto. }
  cbn [GnsModel.step] in ST. destruct (nth_error _ i) as [se|]; [|discriminate ST].
  destruct (exec_stmt order hash se (seen g en s) (sv_w (g_sv g)) s) as [w' o'] eqn:EX. injection ST as <- ->.
  destruct (whole_inv _ _ _ _ W) as [WW WL].
  assert (NFD : ~ failed_forced_drop s o) by (unfold failed_forced_drop, usual in *; destruct s as [| |? [] ?| | | | | | |]; auto).
  pose proof (exec_change order hash se (seen g en s) (sv_w (g_sv g)) s w' o WW WL EX NFD) as CH. clear EX. 
  pose proof (fresh_uuid h i en s o NU) as FR.
  inversion CH as [s0 o0 C1 C2 C3 C4|k p nx o0 C1 C2 C3 C4|id fs p nx o0 lay C0 C1 C2 C3 C4 C5 C6 C7|id f ex o0 m C0 C1 C2 C3 C4|k f ex o0 C0 C1 C2 C3 C4|id k m m' ds C0 C1 C2 C3 C4];
    subst; rewrite ?seen_uuid in *.
  - (* nothing changes *)
    set (sv' := mk_server w' (sv_sess (g_sv g))) in *.
    assert (SAME : match s with SCreateModel _ _ _ _ | SAlterModel _ _ | SDropModel _ _ _ | SDropSpace _ _ _ => False | _ => True end ->
      whole key salt (h ++ [(GDdl i en s, GoDdl o)]) (effect farith order g en s sv' o) /\ forall id, trans id g (effect farith order g en s sv' o) (GDdl i en s) (GoDdl o)).
    { intros Q. assert (E : effect farith order g en s sv' o = mk_gst sv' (g_nodes g) (g_files g) (g_tasks g) (g_dels g)) by (destruct s; try destruct Q; reflexivity).
      rewrite E. apply (same_step farith order hash verify key salt h g sv' _ _ _ _ (new_fid ([], []) 0 (gns g)) W HI C1 C2 C3 (or_introl (conj eq_refl eq_refl))).
      - intros x. apply creates_not. destruct s; try exact Logic.I; destruct Q.
      - intros x l. apply own_not. destruct s; try exact Logic.I; destruct Q. }
    destruct s as [k p nx|k p|k f ex|id fs p nx|id k|id f ex|u op|u op|u|]; try (apply SAME; exact Logic.I); clear SAME; cbn [effect].
    + rewrite C4. apply (same_step farith order hash verify key salt h g sv' _ _ _ _ (new_fid ([], []) 0 (gns g)) W HI C1 C2 C3 (or_introl (conj eq_refl eq_refl)));
        [intros x; apply creates_not; exact Logic.I|intros x l; apply own_not; exact Logic.I].
    + rewrite C4.
      assert (NC : forall x, ~ creates x (GDdl i en (SCreateModel id fs p nx), GoDdl o)) by (intros x; apply creates_not; auto).
      assert (NO : forall x l, own1 x l (GDdl i en (SCreateModel id fs p nx), GoDdl o) = l) by (intros x l; apply own_not; auto).
      assert (PLAIN : whole key salt (h ++ [(GDdl i en (SCreateModel id fs p nx), GoDdl o)]) (mk_gst sv' (g_nodes g) (g_files g) (g_tasks g) (g_dels g)) /\
        forall x, trans x g (mk_gst sv' (g_nodes g) (g_files g) (g_tasks g) (g_dels g)) (GDdl i en (SCreateModel id fs p nx)) (GoDdl o)).
      { apply (same_step farith order hash verify key salt h g sv' _ _ _ _ (new_fid ([], []) 0 (gns g)) W HI C1 C2 C3 (or_introl (conj eq_refl eq_refl)) NC NO). }
      destruct o as [|b|e|]; try exact PLAIN. destruct e; try exact PLAIN. destruct (e_init _); [|exact PLAIN].
      apply (same_step farith order hash verify key salt h g sv' _ _ _ _ (new_fid id (e_uuid en) (gns g)) W HI C1 C2 C3); auto.
      right. destruct FR as [FR1 FR2]. split; [exact FR1|]. split; [exact FR2|]. split; [reflexivity|]. destruct (w_iffy _); auto.
    + cbn [wants_models andb] in WF.
      assert (PLAIN : o <> OEmpty -> whole key salt (h ++ [(GDdl i en (SAlterModel id k), GoDdl o)]) (mk_gst sv' (g_nodes g) (g_files g) (g_tasks g) (g_dels g)) /\
        forall x, trans x g (mk_gst sv' (g_nodes g) (g_files g) (g_tasks g) (g_dels g)) (GDdl i en (SAlterModel id k)) (GoDdl o)).
      { intros Q. apply (same_step farith order hash verify key salt h g sv' _ _ _ _ (new_fid ([], []) 0 (gns g)) W HI C1 C2 C3 (or_introl (conj eq_refl eq_refl)));
          [intros x; apply creates_not; exact Logic.I|intros x l; apply own_not; auto]. }
      destruct o as [|b|e|]; try (apply PLAIN; discriminate). destruct (C4 eq_refl) as (mm & GM & FD).
      pose proof (wo_sync _ _ _ _ _ _ _ W id) as SY. destruct (aget ent_eqb id (g_nodes g)) as [nd|] eqn:GN; [|unfold synced in SY; rewrite GN, GM in SY; destruct SY].
      destruct (synced_some _ _ _ SY GN) as (mm0 & GM0 & Y1 & Y2 & Y3 & Y4). rewrite GM in GM0. injection GM0 as <-.
      assert (ME : mk_mmodel (m_lay (nd_m nd)) (N.of_nat (sver (nd_m nd))) = mm) by (rewrite Y1, Y2; destruct mm; reflexivity).
      assert (RS : rstep farith order (nd_m nd) (RAlter k true) = (nd_m nd, RoOk)).
      { cbn [rstep]. unfold exec_alter. rewrite ME, FD. reflexivity. }
      rewrite RS. cbn [fst].
      apply (alter_step farith order hash verify key salt h g sv' i en id k nd (nd_m nd) mm mm [] W HI GN (flushing_none _ _ _ WF GN) GM RS Y1 eq_refl).
      * rewrite app_nil_r. reflexivity.
      * cbn. lia.
      * intros x. unfold sv'. cbn [sv_w]. rewrite C1. destruct (ent_eqb x id) eqn:X; [apply ent_eqb_eq in X as ->; exact GM|reflexivity].
      * exact C2.
      * intros x. unfold sv'. cbn [sv_w]. rewrite C3. destruct (ent_eqb x id); rewrite app_nil_r; reflexivity.
    + rewrite C4. apply (same_step farith order hash verify key salt h g sv' _ _ _ _ (new_fid ([], []) 0 (gns g)) W HI C1 C2 C3 (or_introl (conj eq_refl eq_refl)));
        [intros x; apply creates_not; exact Logic.I|intros x l; apply own_not; exact Logic.I].
  - (* CREATE SPACE *)
    cbn [effect seen] in *. destruct FR as [FR1 FR2].
    apply (space_step farith order hash verify key salt h g (mk_server w' (sv_sess (g_sv g))) _ _ k (e_uuid en) W HI C1 C2 C3 C4 FR1 FR2);
      [intros x; apply creates_not; exact Logic.I|intros x l; apply own_not; exact Logic.I].
  - (* CREATE MODEL *)
    cbn [effect]. rewrite C0. cbn [sv_w]. rewrite C5, (aget_put_same ent_eqb ent_eqb_eq). cbn [md_lay]. destruct FR as [FR1 FR2].
    exact (make_step farith order hash verify key salt h g (mk_server w' (sv_sess (g_sv g))) i en id fs p nx o lay W HI C0 C1 (create_uuid _ _ _ _ C1) C2 C3 C5 C6 C7 FR2).
  - (* DROP MODEL *)
    cbn [effect]. rewrite C0.
    pose proof (wo_sync _ _ _ _ _ _ _ W id) as SY. destruct (aget ent_eqb id (g_nodes g)) as [nd|] eqn:GN; [|unfold synced in SY; rewrite GN, C1 in SY; destruct SY].
    destruct (synced_some _ _ _ SY GN) as (mm0 & GM0 & Y1 & Y2 & Y3 & Y4). rewrite Y3.
    apply (gone_models farith order hash verify key salt h g (mk_server w' (sv_sess (g_sv g))) _ _ (DelModel (nd_file nd)) (fun x => ent_eqb x id) W HI); cbn [sv_w].
    + intros x. rewrite C2. destruct (ent_eqb x id) eqn:X.
      * apply ent_eqb_eq in X as ->. apply (aget_del_same ent_eqb).
      * apply (aget_del_other ent_eqb ent_eqb_eq). intros ->. rewrite (eqb_r ent_eqb ent_eqb_eq) in X. discriminate X.
    + intros x _. apply C3.
    + intros k u X. rewrite C3 in X. exact X.
    + exact C4.
    + intros x ndx X GX. cbn [hit]. apply (eqb_f fid_eqb fid_eqb_eq). intros EQ. symmetry in EQ. revert EQ.
      eapply (files_differ order hash verify key salt h g x id ndx nd W GX GN). intros ->. rewrite (eqb_r ent_eqb ent_eqb_eq) in X. discriminate X.
    + destruct (node_file order hash verify key salt h g id nd W GN) as (_ & _ & -> & _). eapply uuid_used; eassumption.
    + intros x. apply creates_not. exact Logic.I.
    + intros x l. apply own_not. exact Logic.I.
  - (* DROP SPACE *)
    cbn [effect]. rewrite C0. unfold suuid in C1. destruct (aget bseq k (n_spaces (gns g))) as [sp|] eqn:GS; [|contradiction]. clear C1.
    apply (gone_models farith order hash verify key salt h g (mk_server w' (sv_sess (g_sv g))) _ _ (DelSpace k (sp_uuid sp)) (fun x => bseq k (fst x)) W HI); cbn [sv_w].
    + exact C2.
    + intros x X. rewrite C3. destruct (bseq (fst x) k) eqn:Y; [|reflexivity]. apply bseq_eq in Y. rewrite Y, bseq_refl in X. discriminate X.
    + intros x u X. rewrite C3 in X. destruct (bseq x k); [discriminate X|exact X].
    + exact C4.
    + intros x nd X GX. cbn [hit]. destruct (node_file order hash verify key salt h g x nd W GX) as (-> & _). rewrite X. reflexivity.
    + split; [|rewrite C3, bseq_refl; discriminate]. apply (wo_spaces _ _ _ _ _ _ _ W k). unfold suuid. rewrite GS. reflexivity.
    + intros x. apply creates_not. exact Logic.I.
    + intros x l. apply own_not. exact Logic.I.
  - (* ALTER MODEL *)
    cbn [effect]. cbn [wants_models andb] in WF.
    pose proof (wo_sync _ _ _ _ _ _ _ W id) as SY. destruct (aget ent_eqb id (g_nodes g)) as [nd|] eqn:GN; [|unfold synced in SY; rewrite GN, C0 in SY; destruct SY].
    destruct (synced_some _ _ _ SY GN) as (mm0 & GM0 & Y1 & Y2 & Y3 & Y4). rewrite C0 in GM0. injection GM0 as <-.
    assert (ME : mk_mmodel (m_lay (nd_m nd)) (N.of_nat (sver (nd_m nd))) = m) by (rewrite Y1, Y2; destruct m; reflexivity).
    assert (RS : exists m1, rstep farith order (nd_m nd) (RAlter k true) = (m1, RoOk) /\ m_lay m1 = md_lay m' /\ m_sd m1 = m_sd (nd_m nd) ++ ds /\ lo_uuid (md_lay m') = lo_uuid (md_lay m) /\ md_ver m' = md_ver m + N.of_nat (length ds)).
    { cbn [rstep]. unfold exec_alter. rewrite ME. destruct (fdeltas order m k) as [[e|[nl a]]|]; try destruct C1.
      destruct nl; [|destruct C1]. cbn [negb]. destruct a as [|fs|fs|ks]; try destruct C1 as [-> ->]; try destruct C1; eexists; (split; [reflexivity|]); cbn [set_schema m_lay m_sd].
      - rewrite map_length, live_add_ver, live_add_uuid. auto.
      - rewrite app_nil_r, live_upd_ver, live_upd_uuid. cbn. rewrite N.add_0_r. auto.
      - rewrite map_length, live_rem_ver, live_rem_uuid. auto. }
    destruct RS as (m1 & RS & R1 & R2 & R3 & R4). rewrite RS. cbn [fst].
    apply (alter_step farith order hash verify key salt h g (mk_server w' (sv_sess (g_sv g))) i en id k nd m1 m m' ds W HI GN (flushing_none _ _ _ WF GN) C0 RS R1 R3 R2 R4); cbn [sv_w].
    + intros x. rewrite C2. destruct (ent_eqb x id) eqn:X.
      * apply ent_eqb_eq in X as ->. apply (aget_put_same ent_eqb ent_eqb_eq).
      * apply (aget_put_other ent_eqb ent_eqb_eq). intros ->. rewrite (eqb_r ent_eqb ent_eqb_eq) in X. discriminate X.
    + exact C3.
    + exact C4.
Qed.

(** one event *)
Lemma whole_step key salt h g o g' r : whole key salt h g -> usual (o, r) -> NoDup (used (h ++ [(o, r)])) ->
  gstep g o = Some (g', r) -> whole key salt (h ++ [(o, r)]) g' /\ forall id, trans id g g' o r.
Proof.
  intros W US NU HS.
  assert (MORE : whole key salt h g' /\ (forall id, trans id g g' o r) -> whole key salt (h ++ [(o, r)]) g' /\ forall id, trans id g g' o r).
  { intros [A B]. split; [apply whole_more; exact A|exact B]. }
  assert (SAME : g' = g -> (forall x, ~ creates x (o, r)) -> (forall x l, own1 x l (o, r) = l) -> whole key salt (h ++ [(o, r)]) g' /\ forall id, trans id g g' o r).
  { intros -> NC NO. split; [apply whole_more; exact W|]. intros id. apply trans_same; auto. }
  assert (HI : forall oo sv' out, match oo with OpStmt _ _ _ => False | _ => True end -> GnsModel.step order hash verify (g_sv g) oo = Some (sv', out) -> had key salt sv').
  { intros oo sv' out Q ST. destruct (wo_hist _ _ _ _ _ _ _ W) as (l & A1 & A2 & A3). exists (l ++ [(oo, out)]). split; [econstructor; eassumption|].
    split; apply Forall_app; split; auto; constructor; auto; destruct oo; try destruct Q; exact Logic.I. }
  destruct o as [u p|i en s|i id q|id|i|id w|id w|id u|i ok| |key' salt'].
  - cbn [WholeModel.gstep] in HS. destruct (GnsModel.step _ _ _ _ _) as [[sv' out]|] eqn:ST; [|discriminate HS]. injection HS as <- <-. apply MORE.
    apply (quiet_step farith order hash verify key salt h g sv' _ _ W); [| |eapply HI; [|exact ST]; exact Logic.I|intros x []|reflexivity].
    + cbn [GnsModel.step] in ST. destruct (login _ _ _ _); injection ST as <- _; reflexivity.
    + cbn [GnsModel.step] in ST. destruct (login _ _ _ _); injection ST as <- _; reflexivity.
  - eapply ddl_step; eassumption.
  - cbn [WholeModel.gstep] in HS. destruct (nth_error _ i); [|injection HS as <- <-; apply SAME; auto].
    destruct (is_dml q) eqn:DM; cbn [negb] in HS; [|injection HS as <- <-; apply SAME; auto].
    destruct (aget ent_eqb id (g_nodes g)) as [nd|] eqn:GN; [|injection HS as <- <-; apply SAME; auto].
    destruct (rstep _ _ _ q) as [m x] eqn:RS. injection HS as <- <-. apply MORE. exact (dml_step farith order hash verify key salt h g i id q nd m x W GN DM RS).
  - cbn [WholeModel.gstep] in HS. destruct (aget ent_eqb id (g_nodes g)) as [nd|] eqn:GN; [|injection HS as <- <-; apply SAME; auto].
    destruct (bstep _ _ _ _) as [s x] eqn:BS. injection HS as <- <-. apply MORE.
    apply (flush_step farith order hash verify key salt h g id nd (GTake id) BTake s x W GN); [exact Logic.I|exact BS|intros y []|reflexivity|cbn; auto].
  - cbn [WholeModel.gstep] in HS. destruct (nth_error (g_tasks g) i) as [t|] eqn:NT; [|injection HS as <- <-; apply SAME; auto].
    destruct (aget ent_eqb (wt_id t) (g_nodes g)) as [nd|] eqn:GN.
    2:{ injection HS as <- <-. apply MORE. apply (gone_step farith order hash verify key salt h g i t _ _ W NT); auto. intros nd X. congruence. }
    destruct (nd_uuid nd =? wt_uuid t) eqn:U; cbn [negb] in HS.
    2:{ injection HS as <- <-. apply MORE. apply (gone_step farith order hash verify key salt h g i t _ _ W NT); auto. intros nd' X. rewrite GN in X. injection X as <-. apply N.eqb_neq. exact U. }
    apply N.eqb_eq in U. destruct (nd_fl nd) eqn:NF; [injection HS as <- <-; apply SAME; auto|].
    destruct (bstep _ _ _ _) as [s x] eqn:BS. injection HS as <- <-. apply MORE.
    exact (begin_step farith order hash verify key salt h g i t nd s x W NT GN U NF BS).
  - cbn [WholeModel.gstep] in HS. destruct (aget ent_eqb id (g_nodes g)) as [nd|] eqn:GN; [|injection HS as <- <-; apply SAME; auto].
    destruct (bstep _ _ _ _) as [s x] eqn:BS. injection HS as <- <-. apply MORE.
    apply (flush_step farith order hash verify key salt h g id nd (GStep id w) (BStep w) s x W GN); [exact Logic.I|exact BS|intros y []|reflexivity|cbn; auto].
  - cbn [WholeModel.gstep] in HS. destruct (aget ent_eqb id (g_nodes g)) as [nd|] eqn:GN; [|injection HS as <- <-; apply SAME; auto].
    destruct (bstep _ _ _ _) as [s x] eqn:BS. injection HS as <- <-. apply MORE.
    apply (flush_step farith order hash verify key salt h g id nd (GEnd id w) (BEnd w) s x W GN); [exact Logic.I|exact BS|intros y []|reflexivity|cbn; auto].
  - cbn [WholeModel.gstep] in HS. destruct (aget ent_eqb id (g_nodes g)) as [nd|] eqn:GN; [|injection HS as <- <-; apply SAME; auto].
    destruct (nd_uuid nd =? u); cbn [negb] in HS; [|injection HS as <- <-; apply SAME; auto].
    destruct (bstep _ _ _ _) as [s x] eqn:BS. injection HS as <- <-. apply MORE.
    apply (flush_step farith order hash verify key salt h g id nd (GRecover id u) BRecover s x W GN); [exact Logic.I|exact BS|intros y []|reflexivity|cbn; auto].
  - cbn [WholeModel.gstep] in HS. destruct (nth_error (g_dels g) i) as [d|] eqn:ND; [|injection HS as <- <-; apply SAME; auto].
    pose proof (delete_step farith order hash verify key salt h g i d ok W ND) as DS. destruct ok; injection HS as <- <-; apply MORE; exact DS.
  - cbn [WholeModel.gstep] in HS. destruct (GnsModel.step _ _ _ _ _) as [[sv' out]|] eqn:ST; [|discriminate HS]. injection HS as <- <-. apply MORE.
    apply (quiet_step farith order hash verify key salt h g sv' _ _ W); [| |eapply HI; [|exact ST]; exact Logic.I|intros x []|reflexivity].
    + cbn [GnsModel.step] in ST. injection ST as <- _. reflexivity.
    + cbn [GnsModel.step] in ST. injection ST as <- _. reflexivity.
  - apply (restart_step farith order hash verify order_perm key salt h g key' salt' g' r W HS).
Qed.

Lemma nodup_left (a b : list N) : NoDup (a ++ b) -> NoDup a.
Proof using. induction a as [|x a IH]; intros H; [constructor|]. cbn in H. inversion H; subst. constructor; [intros X; apply H2, in_or_app; auto|auto]. Qed.

Lemma whole_start key salt : whole key salt [] (gstart hash key salt).
Proof.
  constructor; try (intros; contradiction); try (intros; discriminate).
  - exists []. split; [constructor|]. split; constructor.
  - intros id. exact Logic.I.
Qed.

Lemma ghist_whole C key salt h g : ghist farith order hash verify C key salt h g -> Forall usual h -> NoDup (used h) -> whole key salt h g.
Proof.
  induction 1 as [|h g o g' r H IH HS HC N1 N2 N3]; intros US NU; [apply whole_start|]. apply Forall_app in US as [U1 U2]. inversion U2; subst.
  pose proof NU as NU0. rewrite used_snoc in NU0. apply nodup_left in NU0.
  exact (proj1 (whole_step key salt h g o g' r (IH U1 NU0) H2 NU HS)).
Qed.

(** ** The history of one model *)
Section One.
Variable id : ent.
Variable C : gst -> gop -> gout -> Prop.
Variable Q : bst -> bop -> bout -> Prop.
Hypothesis CQ : forall g o r g' nd bo br, C g o r -> gstep g o = Some (g', r) -> aget ent_eqb id (g_nodes g) = Some nd -> induced id o r bo br -> Q (gview g id nd) bo br.

Inductive qhist (s0 : bst) : list (bop * bout) -> bst -> Prop :=
| qh_nil : qhist s0 [] s0
| qh_snoc h s o s' r : qhist s0 h s -> bstep farith order s o = (s', r) -> Q s o r -> r <> BoUb -> r <> BoPanic -> r <> BoStmt RoUb ->
    qhist s0 (h ++ [(o, r)]) s'.

Lemma stmts_app h1 h2 : stmts (h1 ++ h2) = stmts h1 ++ stmts h2.
Proof. unfold stmts. apply flat_map_app. Qed.

Lemma flush_out s bo s' br : bstep farith order s bo = (s', br) -> match bo with BStmt _ => False | _ => True end -> br <> BoStmt RoUb.
Proof using.
  intros H K E. subst br. destruct bo as [q| |i|w|w| |]; try destruct K; cbn [bstep] in H.
  - discriminate H.
  - destruct (b_fl s); [discriminate H|]. destruct (nth_error _ i); [|discriminate H]. destruct (m_iffy _); [discriminate H|]. destruct (_ =? 0); discriminate H.
  - destruct (b_fl s); [|discriminate H]. destruct (_ <=? _); [discriminate H|]. destruct (m_queue _); [discriminate H|].
    destruct (flush_one _ _) as [m2 []]; try discriminate H. destruct w; discriminate H.
  - destruct (b_fl s); [|discriminate H]. destruct (_ <? _); [discriminate H|]. destruct w; discriminate H.
  - destruct (b_fl s); [discriminate H|]. destruct (b_torn s); discriminate H.
  - destruct (b_fl s); [discriminate H|]. destruct (b_bad s); [discriminate H|]. destruct (apply_batches _ _); discriminate H.
Qed.

Lemma induced_out o r bo br s s' : induced id o r bo br -> bstep farith order s bo = (s', br) -> r <> GoFlush BoUb -> r <> GoFlush BoPanic -> r <> GoStmt RoUb ->
  br <> BoUb /\ br <> BoPanic /\ br <> BoStmt RoUb.
Proof using.
  intros IN BS. pose proof (flush_out _ _ _ _ BS) as FO. clear BS. revert IN.
  unfold induced. destruct o as [u p|i en t|i id' q|id'|i|id' w|id' w|id' u|i ok| |k z], r as [x|x|x| |x| | |]; try (intros []; fail); try (destruct t; intros []; fail).
  all: try (destruct t; try (intros []; fail); destruct x; try (intros []; fail)).
  all: try (intros (_ & -> & ->) A B D; repeat split; solve [congruence|apply FO; exact Logic.I]).
  all: try (intros ([j ->] & ->) A B D; repeat split; solve [congruence|apply FO; exact Logic.I]).
  all: intros (-> & ->) A B D; repeat split; discriminate.
Qed.

Lemma one_model key salt h g : ghist farith order hash verify C key salt h g -> Forall usual h -> NoDup (used h) ->
  forall nd, aget ent_eqb id (g_nodes g) = Some nd ->
  exists lay hb, qhist (bst_new lay) hb (gview g id nd) /\ stmts hb = own id h /\ born id h lay.
Proof.
  induction 1 as [|h g o g' r H IH HS HC N1 N2 N3]; intros US NU nd' GN'; [discriminate GN'|]. apply Forall_app in US as [U1 U2]. inversion U2; subst.
  pose proof NU as NU0. rewrite used_snoc in NU0. apply nodup_left in NU0.
  pose proof (ghist_whole _ _ _ _ _ H U1 NU0) as W. destruct (whole_step key salt h g o g' r W H2 NU HS) as [_ T].
  specialize (T id). unfold WholeInv.trans in T. rewrite GN' in T. destruct (aget ent_eqb id (g_nodes g)) as [nd|] eqn:GN.
  - destruct (IH U1 NU0 _ eq_refl) as (lay & hb & Q1 & Q2 & Q3). destruct T as [NC T].
    assert (BO : born id (h ++ [(o, r)]) lay).
    { destruct Q3 as (h1 & i & en & fs & props & nx & out & h2 & -> & B2 & B3 & B4). exists h1, i, en, fs, props, nx, out, (h2 ++ [(o, r)]).
      split; [rewrite <- app_assoc; reflexivity|]. split; [exact B2|]. split; [|exact B4]. apply Forall_app. split; [exact B3|]. constructor; auto. }
    unfold own. rewrite fold_left_app. cbn [fold_left]. fold (own id h). exists lay.
    destruct T as [[V NO]|(bo & br & IN & BS)].
    + exists hb. rewrite V, NO. auto.
    + exists (hb ++ [(bo, br)]). destruct (induced_out _ _ _ _ _ _ IN BS N1 N2 N3) as (X1 & X2 & X3).
      split; [econstructor; eauto|]. split; [|exact BO]. rewrite stmts_app, Q2, (own_induced id _ _ _ _ _ IN). reflexivity.
  - destruct T as (i & en & fs & props & nx & out & lay & -> & -> & CR & PC & V). exists lay, [].
    split; [rewrite V; constructor|]. split.
    + unfold own. rewrite fold_left_app. cbn [fold_left]. fold (own id h). cbn. unfold creates in CR.
      destruct out as [|[|]| |]; try destruct CR; (destruct (ent_dec id id) as [_|X]; [reflexivity|destruct (X eq_refl)]).
    + exists h, i, en, fs, props, nx, out, []. auto.
Qed.
End One.
End Hist.
