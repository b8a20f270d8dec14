(** Proofs about ALTER MODEL on a model with rows and about rows across schema changes. *)
From Coq Require Import List NArith ZArith Bool Lia Permutation.
From Verif Require Import Bytes AMap DataModel CodecModel CodecProofs TypeModel GnsCodecModel GnsModel GnsProofs RowModel RowSpec RowProofs RowTable RowUpd.
Import ListNotations.
Local Open Scope N_scope.

(** * Wider types *)

Lemma in_range_wider q q' w : same_class q q' -> tsel_code (qsel_tsel q) <= tsel_code (qsel_tsel q') ->
  in_range q w -> in_range q' w.
Proof.
  unfold same_class. destruct q, q'; cbn [qsel_tsel tsel_class tsel_code]; intros K L H; try discriminate K;
    try exact H; try (exfalso; revert L; vm_compute; congruence); unfold in_range in *; consts; lia.
Qed.

Lemma interop_num c t : interop c t = true ->
  exists q q', c = qsel_tsel q /\ t = qsel_tsel q' /\ same_class q q'.
Proof.
  unfold interop, same_class. intros H. apply andb_true_iff in H as [H1 H2]. apply tclass_eqb_eq in H1.
  destruct c; try discriminate H2; destruct t; try discriminate H1;
  match goal with |- exists q q', ?a = _ /\ ?b = _ /\ _ =>
    let qa := eval cbv in (tsel_qsel a) in let qb := eval cbv in (tsel_qsel b) in
    match qa with Some ?x => match qb with Some ?y => exists x, y end end end; repeat split.
Qed.

Lemma fits_widen c t x : (tsel_eqb c t || interop c t) = true -> tsel_eqb c t || (tsel_code c <=? tsel_code t) = true ->
  fits [c] x -> fits [t] x.
Proof.
  intros H1 H2 F. destruct (tsel_eqb c t) eqn:E; [apply tsel_eqb_eq in E; subst; exact F|].
  cbn [orb] in *. apply N.leb_le in H2. destruct (interop_num _ _ H1) as (q & q' & -> & -> & SC).
  inversion F as [b E1|b E1|b E1|q0 q1 w R IR E1|ls xs HX E1]; subst;
    try (destruct q; discriminate E1).
  assert (q0 = q) by (destruct q0, q; try discriminate; reflexivity). subst q0.
  constructor.
  - unfold same_class in *. congruence.
  - eapply in_range_wider; eauto.
Qed.

Lemma ldeltas_go_wider ls : forall cur nl d d' ts,
  ldeltas_go ls cur nl d = inr (true, d', true, ts) -> nl = true /\ forall x, fits cur x -> fits ts x.
Proof.
  induction ls as [|l ls IH]; intros cur nl d d' ts H; cbn [ldeltas_go] in H.
  { inversion H; subst; auto. }
  destruct cur as [|c cur]; [inversion H; subst; auto|].
  destruct (get_layer (ls_ty l)) as [t|]; [|discriminate].
  destruct (tsel_eqb c t || interop c t) eqn:E; [|discriminate].
  destruct (match ls_props l with [] => true | _ => false end); [|discriminate].
  destruct (ldeltas_go ls cur _ _) as [e|[[[nl2 d2] ok2] ts2]] eqn:EG; [discriminate|].
  inversion H; subst. destruct (IH _ _ _ _ _ EG) as [NL W]. apply andb_true_iff in NL as [-> NL].
  split; [reflexivity|]. intros x F.
  destruct cur as [|c1 cur].
  - assert (ts2 = []) by (destruct ls; cbn [ldeltas_go] in EG; inversion EG; reflexivity). subst.
    eapply fits_widen; eauto.
  - inversion F as [b E1|b E1|b E1|q0 q1 w R IR E1|ls0 xs HX E1]; subst.
    assert (t = TsList).
    { apply orb_true_iff in E as [E|E]; [apply tsel_eqb_eq in E; auto|].
      unfold interop in E. apply andb_true_iff in E as [_ E]. discriminate. }
    subst t. constructor. intros y Hy. apply W. apply HX. exact Hy.
Qed.

Lemma ldeltas_wider cur ls n d f : ldeltas cur ls n = inr (true, d, f) -> forall c, accepts cur c -> accepts f c.
Proof.
  unfold ldeltas. destruct (Nat.ltb _ _); [discriminate|].
  destruct (ldeltas_go _ _ _ _) as [e|[[[nl2 d2] ok] ts]] eqn:E; [discriminate|].
  destruct ok; [|discriminate]. intros H. inversion H; subst.
  destruct (ldeltas_go_wider _ _ _ _ _ _ E) as [NL W].
  intros c [[-> HN]|F]; [left|right; cbn [f_layers]; auto]. split; [reflexivity|]. cbn [f_null].
  rewrite HN in NL. cbn [andb] in NL. destruct n; [reflexivity|discriminate].
Qed.

Lemma upd_plan_wider pk fs l : forall nl d new d' new',
  upd_plan pk fs l nl d new = Some (inr (true, d', new')) ->
  nl = true /\
  ((forall k f', In (k, f') new -> exists f, aget bseq k fs = Some f /\ forall c, accepts f c -> accepts f' c) ->
   (forall k f', In (k, f') new' -> exists f, aget bseq k fs = Some f /\ forall c, accepts f c -> accepts f' c)) /\
  map fst new' = map fst new ++ map ef_name l.
Proof.
  induction l as [|x l IH]; intros nl d new d' new' H; cbn [upd_plan] in H.
  { inversion H; subst. rewrite app_nil_r. auto. }
  destruct (bseq (ef_name x) pk) eqn:EB; [discriminate|].
  destruct (f_get (ef_name x) fs) as [cur|] eqn:EC; [|discriminate].
  destruct (check_nullable (ef_props x)) as [[e|[nullable rest]]|]; try discriminate.
  destruct (ldeltas cur (ef_layers x) nullable) as [e|[[nl2 d2] f]] eqn:EL; [discriminate|].
  destruct (f_insert (ef_name x) f new) as [new1 fresh] eqn:EI.
  destruct (_ && fresh) eqn:E; [|discriminate].
  apply andb_true_iff in E as [_ ->]. apply f_insert_fresh in EI as [-> EF].
  apply IH in H as (NL & W & MK). apply andb_true_iff in NL as [-> ->].
  split; [reflexivity|]. split.
  - intros HN. apply W. intros k f' Hin. apply in_app_iff in Hin as [Hin|[Hin|[]]]; auto.
    inversion Hin; subst. exists cur. split; [exact EC|]. eapply ldeltas_wider; eauto.
  - rewrite MK, map_app, <- app_assoc. reflexivity.
Qed.

(** * The schema after an accepted ALTER *)

Lemma live_add_fields fs : forall m, NoDup (map fst fs) ->
  (forall k, In k (map fst fs) -> ~ In k (map fst (lo_fields (md_lay m)))) ->
  md_lay (live_add fs m) = md_lay (set_fields (lo_fields (md_lay m) ++ fs) m).
Proof.
  induction fs as [|[k v] fs IH]; intros m ND HK.
  - cbn. rewrite app_nil_r. destruct m as [[? ? ? ?] ?]. reflexivity.
  - unfold live_add. cbn [fold_left fst snd]. unfold mut_add, f_insert.
    rewrite (proj2 (f_has_false k _)) by (apply HK; left; reflexivity). cbn [fst].
    inversion ND; subst.
    change (fold_left _ fs ?x) with (live_add fs x).
    rewrite IH; auto.
    + cbn [bump set_fields md_lay lo_fields lo_uuid lo_pk lo_ptag]. rewrite <- app_assoc. reflexivity.
    + cbn [bump set_fields md_lay lo_fields]. intros k' H'. rewrite map_app, in_app_iff. cbn [map fst In].
      intros [X|[X|[]]]; [|congruence]. eapply HK; [right; exact H'|exact X].
Qed.

Lemma live_rem_fields ks : forall m,
  md_lay (live_rem ks m) = md_lay (set_fields (fold_left (fun f k => adel bseq k f) ks (lo_fields (md_lay m))) m).
Proof.
  induction ks as [|k ks IH]; intros m.
  - destruct m as [[? ? ? ?] ?]. reflexivity.
  - unfold live_rem. cbn [fold_left]. change (fold_left _ ks ?x) with (live_rem ks x) at 1.
    rewrite IH. unfold mut_rem, f_delete. destruct (f_has k (lo_fields (md_lay m))) eqn:E; cbn [fst]; [reflexivity|].
    cbn [bump set_fields md_lay lo_fields lo_uuid lo_pk lo_ptag].
    assert (X : adel bseq k (lo_fields (md_lay m)) = lo_fields (md_lay m)); [|rewrite X; reflexivity].
    apply f_has_false in E. unfold adel, f_keys in *. induction (lo_fields (md_lay m)) as [|[a b] l IHl]; [reflexivity|].
    cbn [filter fst map In] in *. destruct (bseq k a) eqn:EB; [apply bseq_eq in EB; subst; tauto|].
    cbn [negb]. f_equal. apply IHl. tauto.
Qed.

Lemma fold_adel_get ks : forall (f : fieldmap) k,
  aget bseq k (fold_left (fun f k => adel bseq k f) ks f) = if in_dec (list_eq_dec Byte.byte_eq_dec) k ks then None else aget bseq k f.
Proof.
  induction ks as [|x ks IH]; intros f k; [reflexivity|]. cbn [fold_left]. rewrite IH.
  destruct (in_dec (list_eq_dec Byte.byte_eq_dec) k ks) as [i0|n0]; destruct (in_dec (list_eq_dec Byte.byte_eq_dec) k (x :: ks)) as [i|n]; try reflexivity.
  - elim n. right; auto.
  - destruct i as [->|i]; [|contradiction]. apply aget_del_same.
  - apply (aget_del_other _ bseq_eq). intros ->. apply n. left; auto.
Qed.

Lemma aget_app_f k (a b : fieldmap) : aget bseq k (a ++ b) = match aget bseq k a with Some f => Some f | None => aget bseq k b end.
Proof. induction a as [|[x y] a IH]; cbn; [reflexivity|]. destruct (bseq k x); auto. Qed.

Lemma live_upd_fields fs : forall m, NoDup (map fst fs) ->
  (forall k, In k (map fst fs) -> In k (map fst (lo_fields (md_lay m)))) ->
  exists f, md_lay (live_upd fs m) = md_lay (set_fields f m) /\
    forall k, aget bseq k f = match aget bseq k fs with Some x => Some x | None => aget bseq k (lo_fields (md_lay m)) end.
Proof.
  induction fs as [|[k v] fs IH]; intros m ND HK.
  - exists (lo_fields (md_lay m)). split; [destruct m as [[? ? ? ?] ?]; reflexivity|reflexivity].
  - unfold live_upd. cbn [fold_left fst snd]. change (fold_left _ fs ?x) with (live_upd fs x).
    unfold mut_upd, f_update. rewrite (proj2 (f_has_in k _)) by (apply HK; left; reflexivity). cbn [fst].
    inversion ND as [|? ? NI ND']; subst.
    destruct (IH (set_fields (adel bseq k (lo_fields (md_lay m)) ++ [(k, v)]) m) ND') as (f & E & G).
    + cbn [set_fields md_lay lo_fields]. intros k' H'. rewrite map_app, in_app_iff. cbn [map fst In]. left.
      apply (akeys_del_in _ bseq_eq). split; [intros ->; contradiction|apply HK; right; auto].
    + exists f. split; [exact E|]. intros k'. rewrite G. cbn [set_fields md_lay lo_fields aget].
      rewrite aget_app_f. cbn [aget]. destruct (bseq k' k) eqn:EB.
      * apply bseq_eq in EB. subst k'. rewrite (proj2 (aget_none _ bseq_eq k fs)) by exact NI.
        rewrite aget_del_same. reflexivity.
      * apply bseq_neq in EB. rewrite (aget_del_other _ bseq_eq) by exact EB.
        destruct (aget bseq k' fs); [reflexivity|]. destruct (aget bseq k' (lo_fields (md_lay m))); reflexivity.
Qed.

Lemma add_plan_names pk fs l : forall add new, add_plan pk fs l add = Some (inr new) ->
  map fst new = map fst add ++ map ef_name l.
Proof.
  induction l as [|x l IH]; intros add new H; cbn [add_plan] in H.
  { inversion H; subst. rewrite app_nil_r. reflexivity. }
  destruct (check_nullable (ef_props x)) as [[e|[nullable rest]]|]; try discriminate.
  destruct (parse_layers (ef_layers x) nullable) as [f|]; [|discriminate].
  destruct (f_insert (ef_name x) f add) as [add' fresh] eqn:EI.
  destruct (_ && _ && fresh) eqn:E; [|discriminate]. apply andb_true_iff in E as [_ ->].
  apply f_insert_fresh in EI as [-> _]. apply IH in H. rewrite H, map_app, <- app_assoc. reflexivity.
Qed.

Section Alter.
Variable farith : aop -> N -> N -> N.
Variable order : fieldmap -> fieldmap.
Hypothesis order_perm : forall l, Permutation (order l) l.

(** what an accepted ALTER does to the schema; rows are not touched *)
Definition altered (k : alter_kind) (s s' : mst) : Prop :=
  match k with
  | AkAdd l => exists fs, map fst fs = map ef_name l /\
      (forall c, In c (map fst fs) -> ~ In c (map fst (lo_fields (m_lay s)))) /\
      lo_fields (m_lay s') = lo_fields (m_lay s) ++ fs /\
      m_sd s' = m_sd s ++ map SdAdd (map ef_name l)
  | AkRemove ks =>
      (forall c, In c ks -> c <> lo_pk (m_lay s) /\ In c (map fst (lo_fields (m_lay s)))) /\
      lo_fields (m_lay s') = fold_left (fun f k => adel bseq k f) ks (lo_fields (m_lay s)) /\
      m_sd s' = m_sd s ++ map SdRem ks
  | AkUpdate l =>
      (forall c, aget bseq c (lo_fields (m_lay s)) = None <-> aget bseq c (lo_fields (m_lay s')) = None) /\
      (forall c, ~ In c (map ef_name l) -> aget bseq c (lo_fields (m_lay s')) = aget bseq c (lo_fields (m_lay s))) /\
      (forall c f', aget bseq c (lo_fields (m_lay s')) = Some f' ->
         exists f, aget bseq c (lo_fields (m_lay s)) = Some f /\ forall v, accepts f v -> accepts f' v) /\
      m_sd s' = m_sd s
  end.

Lemma mst_eta_schema s : set_schema (m_lay s) (m_sd s) s = s.
Proof. destruct s; reflexivity. Qed.

Lemma alter_cases s k ok s' r : lay_ok (m_lay s) -> exec_alter order s k ok = (s', r) ->
  (s' = s /\ r <> RoOk /\ r <> RoUb) \/
  (r = RoOk /\ altered k s s' /\ s' = set_schema (m_lay s') (m_sd s') s /\ lay_ok (m_lay s') /\
   lo_pk (m_lay s') = lo_pk (m_lay s) /\ lo_ptag (m_lay s') = lo_ptag (m_lay s) /\
   aget bseq (lo_pk (m_lay s)) (lo_fields (m_lay s')) = aget bseq (lo_pk (m_lay s)) (lo_fields (m_lay s))).
Proof.
  intros LO H. unfold exec_alter in H.
  set (mm := mk_mmodel (m_lay s) (N.of_nat (sver s))) in *.
  destruct (fdeltas order mm k) as [[e|[nl a]]|] eqn:EF;
    try (inversion H; subst; left; repeat split; congruence).
  assert (FO : lay_ok (md_lay mm)) by exact LO.
  pose proof (fdeltas_ok order (fun b _ => b) order_perm mm k nl a FO EF) as FK. subst mm.
  destruct LO as (L1 & L2 & f0 & G0 & L3 & L4).
  assert (SAME : forall st : mst, m_lay st = m_lay s -> lay_ok (m_lay st) /\ lo_pk (m_lay st) = lo_pk (m_lay s) /\
     lo_ptag (m_lay st) = lo_ptag (m_lay s) /\
     aget bseq (lo_pk (m_lay s)) (lo_fields (m_lay st)) = aget bseq (lo_pk (m_lay s)) (lo_fields (m_lay s))).
  { intros st ->. split; [exact FO|auto]. }
  destruct k as [l|ks|l]; cbn [fdeltas md_lay] in EF.
  - (* add *)
    destruct (add_plan _ _ l []) as [[e|add]|] eqn:EP; try discriminate. inversion EF; subst; clear EF.
    pose proof (add_plan_names _ _ _ _ _ EP) as NM. cbn [map app] in NM.
    apply add_plan_ok in EP as (E1 & E2 & E3); [|constructor|intros ? []|constructor].
    cbn [negb] in H. destruct add as [|x add].
    + inversion H; subst. right. split; [reflexivity|]. split.
      { exists []. cbn [map] in *. rewrite <- NM. cbn. rewrite !app_nil_r. auto. }
      split; [symmetry; apply mst_eta_schema|]. auto.
    + destruct ok; [|inversion H; subst; left; repeat split; congruence]. apply pair_equal_spec in H as [<- <-].
      right. split; [reflexivity|]. cbn [altered]. cbn [set_schema m_lay m_sd]. destruct FK as [FK _].
      pose proof (live_add_fields (x :: add) (mk_mmodel (m_lay s) (N.of_nat (sver s))) E1
        (fun c Hc => proj2 (E2 c Hc))) as EQ. rewrite EQ in *. clear EQ.
      cbn [md_lay set_fields lo_fields lo_pk lo_ptag] in *. split.
      { exists (x :: add). split; [exact NM|]. split; [intros c Hc; apply E2 in Hc; tauto|]. split; [reflexivity|].
        rewrite <- NM, map_map. reflexivity. }
      split; [reflexivity|]. split; [exact FK|]. split; [reflexivity|]. split; [reflexivity|].
      rewrite aget_app_f. unfold f_get in G0. rewrite G0. reflexivity.
  - (* remove *)
    destruct (negb (no_dups ks)) eqn:ED; [discriminate|].
    destruct (rem_check _ _ ks) eqn:ER; [discriminate|]. pose proof (rem_check_ok _ _ _ ER) as RO.
    inversion EF; subst; clear EF. cbn [negb] in H. destruct ks as [|x ks].
    + inversion H; subst. right. split; [reflexivity|]. split.
      { cbn. rewrite app_nil_r. split; [intros ? []|auto]. }
      split; [symmetry; apply mst_eta_schema|]. auto.
    + destruct ok; [|inversion H; subst; left; repeat split; congruence]. apply pair_equal_spec in H as [<- <-].
      right. split; [reflexivity|]. cbn [altered]. cbn [set_schema m_lay m_sd]. destruct FK as [FK _].
      pose proof (live_rem_fields (x :: ks) (mk_mmodel (m_lay s) (N.of_nat (sver s)))) as EQ. rewrite EQ in *. clear EQ.
      cbn [md_lay set_fields lo_fields lo_pk lo_ptag] in *. split.
      { split; [exact RO|]. split; reflexivity. }
      split; [reflexivity|]. split; [exact FK|]. split; [reflexivity|]. split; [reflexivity|].
      rewrite fold_adel_get. destruct (in_dec (list_eq_dec Byte.byte_eq_dec) (lo_pk (m_lay s)) (x :: ks)) as [i|]; [|reflexivity].
      apply RO in i. tauto.
  - (* update *)
    destruct (upd_plan _ _ l true false []) as [[e|[[nl2 d] new]]|] eqn:EP; try discriminate.
    inversion EF; subst; clear EF. destruct nl; cbn [negb] in H; [|inversion H; subst; left; repeat split; congruence].
    destruct (upd_plan_wider _ _ _ _ _ _ _ _ EP) as (_ & W & NM). specialize (W (fun _ _ (X : In _ []) => match X with end)).
    cbn [map app] in NM.
    destruct (upd_plan_ok _ _ _ _ _ _ _ _ _ L2 EP) as (E1 & E2 & E3); [constructor|intros ? []|constructor|].
    destruct d.
    + destruct ok; [|inversion H; subst; left; repeat split; congruence]. apply pair_equal_spec in H as [<- <-].
      right. split; [reflexivity|]. cbn [altered]. cbn [set_schema m_lay m_sd]. destruct FK as [FK _].
      assert (KEYS : forall k, In k (map fst (order new)) <-> In k (map fst new)).
      { intros k. split; apply Permutation_in; [|apply Permutation_sym]; apply Permutation_map, order_perm. }
      destruct (live_upd_fields (order new) (mk_mmodel (m_lay s) (N.of_nat (sver s)))) as (f & EQ & GF).
      { eapply Permutation_NoDup; [|exact E1]. apply Permutation_map, Permutation_sym, order_perm. }
      { intros k Hk. apply KEYS, E2 in Hk. tauto. }
      rewrite EQ in *. cbn [md_lay set_fields lo_fields lo_pk lo_ptag] in *.
      assert (NDN : NoDup (akeys (order new))).
      { unfold akeys. eapply Permutation_NoDup; [|exact E1]. apply Permutation_map, Permutation_sym, order_perm. }
      split.
      { cbn [altered]. cbn [set_schema m_lay m_sd lo_fields]. split.
        - intros c. rewrite GF. destruct (aget bseq c (order new)) eqn:GO; [|tauto].
          apply (aget_some_key _ bseq_eq) in GO. apply KEYS, E2 in GO.
          split; [|discriminate]. intros X. apply (aget_none _ bseq_eq) in X. elim X. apply GO.
        - split; [|split; [|reflexivity]].
          + intros c Hc. rewrite GF. destruct (aget bseq c (order new)) eqn:GO; [|reflexivity].
            apply (aget_some_key _ bseq_eq) in GO. apply KEYS in GO. rewrite NM in GO. contradiction.
          + intros c f' Hf. rewrite GF in Hf. destruct (aget bseq c (order new)) eqn:GO; [|eauto].
            inversion Hf; subst. apply (aget_in _ bseq_eq) in GO. apply W.
            eapply Permutation_in; [apply order_perm|exact GO]. }
      split; [reflexivity|]. split; [exact FK|]. split; [reflexivity|]. split; [reflexivity|].
      rewrite GF. destruct (aget bseq (lo_pk (m_lay s)) (order new)) eqn:GO; [|reflexivity].
      apply (aget_some_key _ bseq_eq) in GO. apply KEYS, E2 in GO. tauto.
    + inversion H; subst. right. split; [reflexivity|]. split.
      { cbn [altered]. split; [tauto|]. split; [auto|]. split; [|reflexivity]. eauto. }
      split; [symmetry; apply mst_eta_schema|]. auto.
Qed.

(** * Histories with schema changes *)

Record ginv (s : mst) : Prop := {
  gi_lay : lay_ok (m_lay s);
  gi_nd : NoDup (akeys (m_idx s));
  gi_row : forall k i, aget pkey_eqb k (m_idx s) = Some i ->
    exists o, nth_error (m_objs s) i = Some o /\ ro_key o = k
}.

Lemma ginv_new lay : lay_ok lay -> ginv (mst_new lay).
Proof. intros L. constructor; [exact L|constructor|]. cbn. discriminate. Qed.

Lemma resolve_key sd o : ro_key (resolve sd o) = ro_key o.
Proof. unfold resolve. destruct (Nat.leb _ _); reflexivity. Qed.
Lemma resolve_same sd o : (length sd <= ro_sv o)%nat -> resolve sd o = o.
Proof. intros H. unfold resolve. apply Nat.leb_le in H. rewrite H. reflexivity. Qed.

(** columns no schema change has named *)
Definition untouched (c : bytes) (sd : list sdelta) : Prop := ~ In (SdAdd c) sd /\ ~ In (SdRem c) sd.

Lemma fold_apply_get c ds : forall m, untouched c ds -> aget bseq c (fold_left apply_sd ds m) = aget bseq c m.
Proof.
  induction ds as [|d ds IH]; intros m [U1 U2]; [reflexivity|]. cbn [fold_left].
  rewrite IH by (split; intros X; [apply U1|apply U2]; right; exact X).
  destruct d as [f|f]; cbn [apply_sd].
  - unfold rf_insert. destruct (aget bseq f m) eqn:E; cbn [fst]; [reflexivity|].
    assert (f <> c) by (intros ->; apply U1; left; reflexivity).
    clear -H. induction m as [|[a b] m IHm]; cbn [app aget].
    + destruct (bseq c f) eqn:E; [apply bseq_eq in E; congruence|reflexivity].
    + destruct (bseq c a); auto.
  - apply (aget_del_other _ bseq_eq). intros ->. apply U2. left; reflexivity.
Qed.
Lemma resolve_get c sd o : untouched c sd -> aget bseq c (ro_fields (resolve sd o)) = aget bseq c (ro_fields o).
Proof.
  intros [U1 U2]. unfold resolve. destruct (Nat.leb _ _); [reflexivity|]. cbn [ro_fields].
  apply fold_apply_get. split; intros X; [apply U1|apply U2];
    rewrite <- (firstn_skipn (S (ro_sv o)) sd); apply in_app_iff; right; exact X.
Qed.

(** how one object may change: reads resolve it *)
Definition kept (sd : list sdelta) (a b : list rowobj) : Prop :=
  forall i, nth_error b i = nth_error a i \/
    exists o o', nth_error a i = Some o /\ nth_error b i = Some o' /\ ro_key o' = ro_key o /\ ro_rev o' = ro_rev o /\
      (forall c, untouched c sd -> aget bseq c (ro_fields o') = aget bseq c (ro_fields o)) /\
      ((length sd <= ro_sv o)%nat -> o' = o).

Lemma kept_refl sd a : kept sd a a.
Proof. intros i. left. reflexivity. Qed.
Lemma kept_trans sd a b c : kept sd a b -> kept sd b c -> kept sd a c.
Proof.
  intros H1 H2 i. destruct (H1 i) as [E1|(o & o1 & A1 & B1 & K1 & R1 & G1 & S1)];
    destruct (H2 i) as [E2|(o2 & o3 & A2 & B2 & K2 & R2 & G2 & S2)].
  - left. congruence.
  - right. exists o2, o3. rewrite <- E1. auto 8.
  - right. exists o, o1. rewrite E2. auto 8.
  - assert (o2 = o1) by congruence. subst o2. right. exists o, o3. split; [auto|]. split; [auto|].
    split; [congruence|]. split; [congruence|]. split.
    + intros x Hx. rewrite G2, G1; auto.
    + intros L. rewrite <- (S1 L). apply S2. rewrite (S1 L). exact L.
Qed.
Lemma kept_resolve sd a i o : nth_error a i = Some o -> kept sd a (upd_nth i (resolve sd o) a).
Proof.
  intros E j. destruct (Nat.eq_dec i j) as [<-|NE].
  - right. exists o, (resolve sd o). rewrite (nth_upd_same _ _ _ _ E). split; [auto|]. split; [auto|].
    split; [apply resolve_key|]. split; [unfold resolve; destruct (Nat.leb _ _); reflexivity|].
    split; [intros c U; apply resolve_get; exact U|apply resolve_same].
  - left. apply nth_upd_other. exact NE.
Qed.

Lemma scan_rows_kept lay sd cols ids : forall objs, kept sd objs (fst (scan_rows lay sd cols ids objs)).
Proof.
  induction ids as [|i ids IH]; intros objs; cbn [scan_rows]; [apply kept_refl|].
  destruct (nth_error objs i) as [o|] eqn:E; [|apply kept_refl]. cbv zeta.
  destruct (read_cols_all _ _ _ _).
  - specialize (IH (upd_nth i (resolve sd o) objs)).
    destruct (scan_rows lay sd cols ids (upd_nth i (resolve sd o) objs)) as [objs2 rs]. cbn [fst] in *.
    eapply kept_trans; [apply kept_resolve; exact E|exact IH].
  - apply kept_resolve. exact E.
Qed.

(** the statement writes the row with the given key *)
Definition writes (lay : layout) (k : pkey) (q : rstmt) : Prop :=
  match q with RUpdate w _ | RDelete w => asked lay w = Some k | _ => False end.

(** one statement: the invariant, and the rows it does not write *)
Lemma grow_step s q s' r : ginv s -> (match q with RInsert d => data_ok d | _ => True end) ->
  rstep farith order s q = (s', r) -> r <> RoUb ->
  ginv s' /\ lo_pk (m_lay s') = lo_pk (m_lay s) /\ lo_ptag (m_lay s') = lo_ptag (m_lay s) /\
  (exists ds, m_sd s' = m_sd s ++ ds) /\
  (match q with RAlter _ _ => True | _ => m_lay s' = m_lay s /\ m_sd s' = m_sd s end) /\
  (forall k i o, aget pkey_eqb k (m_idx s) = Some i -> nth_error (m_objs s) i = Some o -> ~ writes (m_lay s) k q ->
     exists o', aget pkey_eqb k (m_idx s') = Some i /\ nth_error (m_objs s') i = Some o' /\
       (forall c, untouched c (m_sd s) -> aget bseq c (ro_fields o') = aget bseq c (ro_fields o)) /\
       ((length (m_sd s) <= ro_sv o)%nat -> o' = o)).
Proof.
  intros I HQ H HU. pose proof I as [IL IN IR].
  assert (UP : tuniq_is_unique (tsel_uniq (lo_ptag (m_lay s))) = true) by (destruct IL as (_ & _ & f & _ & _ & U); exact U).
  assert (SAMEROW : forall s1 : mst, m_idx s1 = m_idx s -> m_objs s1 = m_objs s -> m_lay s1 = m_lay s -> m_sd s1 = m_sd s ->
    ginv s1 /\ lo_pk (m_lay s1) = lo_pk (m_lay s) /\ lo_ptag (m_lay s1) = lo_ptag (m_lay s) /\
    (exists ds, m_sd s1 = m_sd s ++ ds) /\
    (match q with RAlter _ _ => True | _ => m_lay s1 = m_lay s /\ m_sd s1 = m_sd s end) /\
    (forall k i o, aget pkey_eqb k (m_idx s) = Some i -> nth_error (m_objs s) i = Some o -> ~ writes (m_lay s) k q ->
     exists o', aget pkey_eqb k (m_idx s1) = Some i /\ nth_error (m_objs s1) i = Some o' /\
       (forall c, untouched c (m_sd s) -> aget bseq c (ro_fields o') = aget bseq c (ro_fields o)) /\
       ((length (m_sd s) <= ro_sv o)%nat -> o' = o))).
  { intros s1 E1 E2 E3 E4. split; [constructor; rewrite ?E1, ?E2, ?E3; auto|]. rewrite E3, E4.
    split; [reflexivity|]. split; [reflexivity|]. split; [exists []; rewrite app_nil_r; reflexivity|].
    split; [destruct q; auto|]. intros k i o G N _. exists o. rewrite E1, E2. auto. }
  assert (READ : forall objs, (forall k ak, q <> RAlter k ak) -> kept (m_sd s) (m_objs s) objs -> s' = set_objs objs s ->
    ginv s' /\ lo_pk (m_lay s') = lo_pk (m_lay s) /\ lo_ptag (m_lay s') = lo_ptag (m_lay s) /\
    (exists ds, m_sd s' = m_sd s ++ ds) /\
    (match q with RAlter _ _ => True | _ => m_lay s' = m_lay s /\ m_sd s' = m_sd s end) /\
    (forall k i o, aget pkey_eqb k (m_idx s) = Some i -> nth_error (m_objs s) i = Some o -> ~ writes (m_lay s) k q ->
     exists o', aget pkey_eqb k (m_idx s') = Some i /\ nth_error (m_objs s') i = Some o' /\
       (forall c, untouched c (m_sd s) -> aget bseq c (ro_fields o') = aget bseq c (ro_fields o)) /\
       ((length (m_sd s) <= ro_sv o)%nat -> o' = o))).
  { intros objs NQ KP ->. cbn [set_objs m_lay m_sd m_idx m_objs]. split.
    - constructor; cbn [set_objs m_lay m_idx m_objs]; auto. intros k i G. destruct (IR _ _ G) as (o & E & K).
      destruct (KP i) as [X|(o1 & o2 & A & B & C & _)]; [exists o; rewrite X; auto|].
      exists o2. split; [exact B|]. congruence.
    - split; [reflexivity|]. split; [reflexivity|]. split; [exists []; rewrite app_nil_r; reflexivity|].
      split; [destruct q; auto|]. intros k i o G N _.
      destruct (KP i) as [X|(o1 & o2 & A & B & C & _ & D & E)].
      + exists o. rewrite X. auto.
      + assert (o1 = o) by congruence. subst. exists o2. auto. }
  destruct q as [d|w asg|w|w cols|cols limit|ak ok]; cbn [rstep] in *.
  - unfold exec_insert in H. destruct (m_iffy s); [inversion H; subst; apply SAMEROW; reflexivity|].
    destruct (prepare_insert (m_lay s) d) as [[pk row]| |] eqn:EP; try (inversion H; subst; apply SAMEROW; reflexivity).
    cbn [bump_dver set_dver m_idx m_objs sver m_sd] in H.
    destruct (aget pkey_eqb pk (m_idx s)) as [i0|] eqn:G0; [inversion H; subst; apply SAMEROW; reflexivity|].
    inversion H; subst; clear H. cbn [enqueue set_queue set_idx set_objs bump_dver set_dver m_lay m_sd m_idx m_objs writes].
    assert (ROW : forall k i o, aget pkey_eqb k (m_idx s) = Some i -> nth_error (m_objs s) i = Some o ->
       aget pkey_eqb k (aput pkey_eqb pk (length (m_objs s)) (m_idx s)) = Some i /\
       nth_error (m_objs s ++ [mk_row pk row (m_dver s) (sver (bump_dver s))]) i = Some o).
    { intros k i o G N. split.
      - rewrite (aget_put_other _ pkey_eqb_eq); [exact G|]. intros ->. congruence.
      - rewrite nth_error_app1; [exact N|]. apply nth_error_Some. congruence. }
    split.
    + constructor; cbn [enqueue set_queue set_idx set_objs bump_dver set_dver m_lay m_sd m_idx m_objs]; auto.
      * apply (nodup_put _ pkey_eqb_eq). exact IN.
      * intros k i G. destruct (pkey_eqb k pk) eqn:EK.
        -- apply pkey_eqb_eq in EK. subst k. rewrite (aget_put_same _ pkey_eqb_eq) in G. inversion G; subst.
           rewrite nth_error_app2 by lia. rewrite Nat.sub_diag. cbn. eexists. split; reflexivity.
        -- assert (NE : k <> pk) by (intros ->; rewrite pkey_eqb_refl in EK; discriminate).
           rewrite (aget_put_other _ pkey_eqb_eq) in G by exact NE.
           destruct (IR _ _ G) as (o & E & K). exists o. split; [|exact K]. eapply ROW; eauto.
    + split; [reflexivity|]. split; [reflexivity|]. split; [exists []; rewrite app_nil_r; reflexivity|].
      split; [auto|]. intros k i o G N _. exists o. destruct (ROW _ _ _ G N). auto.
  - unfold exec_update in H. destruct (m_iffy s); [inversion H; subst; apply SAMEROW; reflexivity|].
    pose proof (resolve_where_asked (m_lay s) w UP) as RW.
    destruct (resolve_where (m_lay s) w) as [x|]; [|inversion H; subst; apply SAMEROW; reflexivity].
    destruct (aget pkey_eqb (lit_key x) (m_idx s)) as [i0|] eqn:G0; [|inversion H; subst; apply SAMEROW; reflexivity].
    destruct (IR _ _ G0) as (o0 & E0 & K0). rewrite E0 in H.
    assert (W : exists o1, ro_key o1 = ro_key o0 /\ m_objs s' = upd_nth i0 o1 (m_objs s) /\ m_idx s' = m_idx s /\
                 m_lay s' = m_lay s /\ m_sd s' = m_sd s).
    { destruct (update_row farith (lo_fields (m_lay s)) (ro_fields o0) asg) as [m1 r1].
      destruct r1; inversion H; subst; cbn [enqueue set_queue set_idx set_objs bump_dver set_dver m_lay m_sd m_idx m_objs];
        (eexists; split; [|split; [reflexivity|repeat split]]; reflexivity). }
    destruct W as (o1 & KO & EO & EI & EL & ED). split.
    + constructor; rewrite ?EL, ?EI; auto. intros k i G. rewrite EO. destruct (IR _ _ G) as (o & E & K).
      destruct (Nat.eq_dec i0 i) as [<-|NE].
      * exists o1. rewrite (nth_upd_same _ _ _ _ E0). split; [reflexivity|]. congruence.
      * exists o. rewrite nth_upd_other by exact NE. auto.
    + rewrite EL, ED. split; [reflexivity|]. split; [reflexivity|]. split; [exists []; rewrite app_nil_r; reflexivity|].
      split; [auto|]. intros k i o G N NW. cbn [writes] in NW. exists o. rewrite EI, EO.
      split; [exact G|]. split; [|auto]. rewrite nth_upd_other; [exact N|]. intros ->.
      assert (ro_key o = k) by (destruct (IR _ _ G) as (o2 & E & K); congruence).
      assert (o = o0) by congruence. subst. apply NW. rewrite RW. congruence.
  - unfold exec_delete in H. destruct (m_iffy s); [inversion H; subst; apply SAMEROW; reflexivity|].
    pose proof (resolve_where_asked (m_lay s) w UP) as RW.
    destruct (resolve_where (m_lay s) w) as [x|]; [|inversion H; subst; apply SAMEROW; reflexivity].
    cbn [bump_dver set_dver m_idx] in H.
    destruct (aget pkey_eqb (lit_key x) (m_idx s)) as [i0|] eqn:G0; [|inversion H; subst; apply SAMEROW; reflexivity].
    inversion H; subst; clear H. cbn [enqueue set_queue set_idx set_objs bump_dver set_dver m_lay m_sd m_idx m_objs writes].
    split.
    + constructor; cbn [enqueue set_queue set_idx set_objs bump_dver set_dver m_lay m_sd m_idx m_objs]; auto.
      * apply (nodup_del _ pkey_eqb_eq). exact IN.
      * intros k i G. destruct (pkey_eqb k (lit_key x)) eqn:EK.
        -- apply pkey_eqb_eq in EK. subst k. rewrite aget_del_same in G. discriminate.
        -- assert (NE : k <> lit_key x) by (intros ->; rewrite pkey_eqb_refl in EK; discriminate).
           rewrite (aget_del_other _ pkey_eqb_eq) in G by exact NE. auto.
    + split; [reflexivity|]. split; [reflexivity|]. split; [exists []; rewrite app_nil_r; reflexivity|].
      split; [auto|]. intros k i o G N NW. exists o. split; [|auto].
      rewrite (aget_del_other _ pkey_eqb_eq); [exact G|]. intros ->. apply NW. rewrite RW. reflexivity.
  - unfold exec_select in H.
    destruct (resolve_where (m_lay s) w) as [x|]; [|inversion H; subst; apply SAMEROW; reflexivity].
    destruct (aget pkey_eqb (lit_key x) (m_idx s)) as [i0|] eqn:G0; [|inversion H; subst; apply SAMEROW; reflexivity].
    destruct (IR _ _ G0) as (o0 & E0 & K0). rewrite E0 in H.
    apply (READ (upd_nth i0 (resolve (m_sd s) o0) (m_objs s))); [congruence|apply kept_resolve; exact E0|].
    destruct (read_cols _ _ _ _); inversion H; reflexivity.
  - unfold exec_select_all in H. destruct (match cols with None => false | Some l => _ end);
      [inversion H; subst; apply SAMEROW; reflexivity|].
    pose proof (scan_rows_kept (m_lay s) (m_sd s) (match cols with None => map fst (lo_fields (m_lay s)) | Some l => l end)
      (firstn (N.to_nat (N.min limit (N.of_nat (length (m_idx s))))) (map snd (m_idx s))) (m_objs s)) as KP.
    destruct (scan_rows _ _ _ _ _) as [objs rr]. cbn [fst] in KP. inversion H; subst.
    apply (READ objs); [congruence|exact KP|reflexivity].
  - destruct (alter_cases _ _ _ _ _ IL H) as [[-> _]|(-> & AL & ES & LO' & P1 & P2 & _)].
    + apply SAMEROW; reflexivity.
    + assert (EI : m_idx s' = m_idx s) by (rewrite ES; reflexivity).
      assert (EO : m_objs s' = m_objs s) by (rewrite ES; reflexivity).
      split; [constructor; rewrite ?EI, ?EO; auto|]. split; [auto|]. split; [auto|]. split.
      { destruct ak; cbn [altered] in AL.
        - destruct AL as (fs0 & _ & _ & _ & ->). eauto.
        - destruct AL as (_ & _ & ->). eauto.
        - destruct AL as (_ & _ & _ & ->). exists []. rewrite app_nil_r. reflexivity. }
      split; [exact Logic.I|]. intros k i o G N _. exists o. rewrite EI, EO. auto.
Qed.

Definition stmt_ok (q : rstmt) : Prop := match q with RInsert d => data_ok d | _ => True end.

Lemma asked_same lay lay' w : lo_pk lay' = lo_pk lay -> lo_ptag lay' = lo_ptag lay -> asked lay' w = asked lay w.
Proof. intros A B. unfold asked. rewrite A, B. reflexivity. Qed.

(** any history *)
Lemma grow_hist s h s' : rhist farith order s h s' -> ginv s -> Forall (fun e => stmt_ok (fst e)) h ->
  ginv s' /\ lo_pk (m_lay s') = lo_pk (m_lay s) /\ lo_ptag (m_lay s') = lo_ptag (m_lay s) /\
  (exists ds, m_sd s' = m_sd s ++ ds) /\
  (Forall (fun e => match fst e with RAlter _ _ => False | _ => True end) h -> m_lay s' = m_lay s /\ m_sd s' = m_sd s) /\
  (forall k i o, aget pkey_eqb k (m_idx s) = Some i -> nth_error (m_objs s) i = Some o ->
     Forall (fun e => ~ writes (m_lay s) k (fst e)) h ->
     exists o', aget pkey_eqb k (m_idx s') = Some i /\ nth_error (m_objs s') i = Some o' /\
       (forall c, untouched c (m_sd s') -> aget bseq c (ro_fields o') = aget bseq c (ro_fields o)) /\
       (Forall (fun e => match fst e with RAlter _ _ => False | _ => True end) h ->
        (length (m_sd s) <= ro_sv o)%nat -> o' = o)).
Proof.
  intros H. induction H as [s|s h s1 q s2 r H IH HS HU]; intros I HF.
  - split; [auto|]. split; [auto|]. split; [auto|]. split; [exists []; rewrite app_nil_r; auto|]. split; [auto|].
    intros k i o G N _. exists o. auto.
  - apply Forall_app in HF as [HF HQ]. inversion HQ as [|? ? HQ1 _]; subst. cbn [fst] in HQ1.
    destruct (IH I HF) as (I1 & P1 & T1 & (ds1 & D1) & A1 & R1).
    destruct (grow_step s1 q s2 r I1 HQ1 HS HU) as (I2 & P2 & T2 & (ds2 & D2) & A2 & R2).
    split; [auto|]. split; [congruence|]. split; [congruence|].
    split; [exists (ds1 ++ ds2); rewrite D2, D1, app_assoc; auto|]. split.
    + intros FA. apply Forall_app in FA as [FA FQ]. inversion FQ as [|? ? FQ1 _]; subst. cbn [fst] in FQ1.
      destruct (A1 FA) as [X1 X2]. destruct q; try contradiction; destruct A2 as [X3 X4]; split; congruence.
    + intros k i o G N FW. apply Forall_app in FW as [FW FQ]. inversion FQ as [|? ? FQ1 _]; subst. cbn [fst] in FQ1.
      destruct (R1 k i o G N FW) as (o1 & G1 & N1 & C1 & S1).
      assert (NW : ~ writes (m_lay s1) k q).
      { intros X. apply FQ1. destruct q; cbn [writes] in *; try contradiction; rewrite <- X; symmetry; apply asked_same; auto. }
      destruct (R2 k i o1 G1 N1 NW) as (o2 & G2 & N2 & C2 & S2).
      exists o2. split; [auto|]. split; [auto|]. split.
      * intros c [U1 U2]. rewrite D2 in U1, U2. rewrite C2.
        -- apply C1. split; intros X; [apply U1|apply U2]; apply in_app_iff; left; exact X.
        -- split; intros X; [apply U1|apply U2]; apply in_app_iff; left; exact X.
      * intros FA. apply Forall_app in FA as [FA _]. intros L. rewrite <- (S1 FA L). apply S2.
        destruct (A1 FA) as [_ ->]. rewrite (S1 FA L). exact L.
Qed.

(** * Reading one row in any state *)

Lemma select_state s w cols k i o : ginv s -> asked (m_lay s) w = Some k ->
  aget pkey_eqb k (m_idx s) = Some i -> nth_error (m_objs s) i = Some o ->
  snd (rstep farith order s (RSelect w cols)) =
  match read_cols (lo_pk (m_lay s)) (key_cell k) (ro_fields (resolve (m_sd s) o)) (wanted (m_lay s) cols) with
  | Some l => RoRow l
  | None => RoErr EField
  end.
Proof.
  intros I HA G N. destruct I as [IL IN IR].
  assert (UP : tuniq_is_unique (tsel_uniq (lo_ptag (m_lay s))) = true) by (destruct IL as (_ & _ & f & _ & _ & U); exact U).
  cbn [rstep]. unfold exec_select.
  pose proof (resolve_where_asked (m_lay s) w UP) as RW.
  destruct (resolve_where (m_lay s) w) as [x|] eqn:ER; [|congruence].
  assert (KX : lit_key x = k) by congruence. subst k.
  rewrite G, N. rewrite (lit_key_cell _ _ _ ER UP). unfold wanted. cbv zeta.
  destruct (read_cols _ _ _ _); reflexivity.
Qed.

Lemma read_cols_missing pk kc m cols c : In c cols -> c <> pk -> aget bseq c m = None -> read_cols pk kc m cols = None.
Proof.
  intros Hin NP G. induction cols as [|x cols IH]; [contradiction|]. cbn [read_cols].
  destruct Hin as [->|Hin].
  - rewrite G. destruct (bseq c pk) eqn:E; [apply bseq_eq in E; contradiction|reflexivity].
  - rewrite (IH Hin). destruct (match aget bseq x m with Some c0 => Some c0 | None => _ end); reflexivity.
Qed.
Lemma read_cols_all_missing pk kc m cols c : In c cols -> c <> pk -> aget bseq c m = None -> read_cols_all pk kc m cols = None.
Proof.
  intros Hin NP G. induction cols as [|x cols IH]; [contradiction|]. cbn [read_cols_all].
  destruct Hin as [->|Hin].
  - destruct (bseq c pk) eqn:E; [apply bseq_eq in E; contradiction|]. rewrite G. reflexivity.
  - rewrite (IH Hin). destruct (if bseq x pk then Some kc else aget bseq x m); reflexivity.
Qed.

(** a row written under the present schema misses the first schema delta published afterwards *)
Lemma resolve_first sd d o : ro_sv o = length sd -> ro_fields (resolve (sd ++ [d]) o) = ro_fields o.
Proof.
  intros E. unfold resolve. destruct (Nat.leb _ _); [reflexivity|]. cbn [ro_fields].
  rewrite skipn_all2; [reflexivity|]. rewrite app_length, E. cbn. lia.
Qed.

Lemma scan_panics lay sd cols : forall ids objs i o, In i ids -> nth_error objs i = Some o ->
  read_cols_all (lo_pk lay) (pk_cell (lo_ptag lay) (ro_key o)) (ro_fields (resolve sd o)) cols = None ->
  exists objs', scan_rows lay sd cols ids objs = (objs', VPanic).
Proof.
  induction ids as [|j ids IH]; intros objs i o Hin N HR; [contradiction|]. cbn [scan_rows].
  destruct (nth_error objs j) as [oj|] eqn:EJ; [|eauto]. cbv zeta.
  destruct (Nat.eq_dec j i) as [->|NE].
  - assert (oj = o) by congruence. subst oj. rewrite resolve_key, HR. eauto.
  - destruct (read_cols_all (lo_pk lay) (pk_cell (lo_ptag lay) (ro_key (resolve sd oj))) (ro_fields (resolve sd oj)) cols); [|eauto].
    destruct Hin as [->|Hin]; [congruence|].
    destruct (IH (upd_nth j (resolve sd oj) objs) i o Hin) as (objs' & ->); auto.
    + rewrite nth_upd_other; auto.
    + eexists. reflexivity.
Qed.
End Alter.
