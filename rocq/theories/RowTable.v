(** Proofs about histories of row statements (RowModel.v against the table of RowSpec.v). *)
From Coq Require Import List NArith ZArith Bool Lia Permutation.
From Verif Require Import Bytes AMap DataModel CodecModel CodecProofs GnsCodecModel GnsModel GnsProofs RowModel RowSpec RowProofs.
Import ListNotations.
Local Open Scope N_scope.

Lemma pkey_eqb_eq a b : pkey_eqb a b = true <-> a = b.
Proof.
  destruct a, b; cbn; rewrite ?N.eqb_eq, ?bseq_eq; split; intros; try discriminate; try congruence; auto.
Qed.
Lemma pkey_eqb_refl a : pkey_eqb a a = true.
Proof. apply pkey_eqb_eq. reflexivity. Qed.

Lemma nth_upd_same {A} i (x y : A) l : nth_error l i = Some y -> nth_error (upd_nth i x l) i = Some x.
Proof. revert i. induction l as [|z l IH]; intros [|i] H; cbn in *; try discriminate; auto. Qed.
Lemma nth_upd_other {A} i j (x : A) l : i <> j -> nth_error (upd_nth i x l) j = nth_error l j.
Proof.
  revert i j. induction l as [|z l IH]; intros [|i] [|j] H; cbn; auto; try congruence.
Qed.
Lemma upd_nth_id {A} i (x : A) l : nth_error l i = Some x -> upd_nth i x l = l.
Proof. revert i. induction l as [|z l IH]; intros [|i] H; cbn in *; try discriminate; [congruence|]. f_equal; auto. Qed.
Lemma upd_nth_length {A} i (x : A) l : length (upd_nth i x l) = length l.
Proof. revert i. induction l as [|z l IH]; intros [|i]; cbn; auto. Qed.

(** * Columns of one row *)

Lemma aget_rf_update k k' c m : aget bseq k (rf_update k' c m) =
  if bseq k k' then match aget bseq k m with Some _ => Some c | None => None end else aget bseq k m.
Proof.
  unfold rf_update. destruct (bseq k k') eqn:E.
  - apply bseq_eq in E. subst k'. destruct (aget bseq k m) eqn:G; [|exact G].
    apply aget_put_same. apply bseq_eq.
  - destruct (aget bseq k' m) eqn:G; [|reflexivity]. apply aget_put_other; [apply bseq_eq|].
    apply bseq_neq. exact E.
Qed.
Lemma akeys_rf_update k c m : akeys (rf_update k c m) = akeys m.
Proof.
  unfold rf_update. destruct (aget bseq k m) eqn:G; [|reflexivity].
  revert G. induction m as [|[k' v] m IH]; cbn; [discriminate|].
  destruct (bseq k k') eqn:E; cbn; [apply bseq_eq in E; congruence|]. intros G. f_equal. apply IH. exact G.
Qed.
Lemma akeys_rollback saved : forall m, akeys (rollback m saved) = akeys m.
Proof.
  unfold rollback. induction saved as [|[k c] saved IH]; intros m; cbn [fold_left]; [reflexivity|].
  rewrite IH. apply akeys_rf_update.
Qed.

Lemma not_all_exists (fs : fieldmap) (l : list bytes) :
  ~ Forall (fun c => In c (map fst fs)) l -> exists x, In x l /\ negb (f_has x fs) = true.
Proof.
  induction l as [|c l IH]; intros H; [exfalso; apply H; constructor|].
  destruct (f_has c fs) eqn:E.
  - destruct IH as (x & Hx & EX); [|exists x; split; [right; auto|auto]].
    intros F. apply H. constructor; auto. apply f_has_in. exact E.
  - exists c. split; [left; auto|]. rewrite E. reflexivity.
Qed.
Lemma firstn_min {A} n (l : list A) : firstn (Nat.min n (length l)) l = firstn n l.
Proof.
  destruct (Nat.le_gt_cases n (length l)).
  - rewrite Nat.min_l by auto. reflexivity.
  - rewrite Nat.min_r by lia. rewrite firstn_all, firstn_all2 by lia. reflexivity.
Qed.

Section Table.
Variable farith : aop -> N -> N -> N.
Variable order : fieldmap -> fieldmap.

Definition ur_fields (r : upd_res) : option rfields :=
  match r with UrDone m | UrErr _ m _ | UrPanic m => Some m | UrUb => None end.

Lemma upd_loop_keys fs asg : forall rb m saved m', ur_fields (upd_loop farith fs asg rb m saved) = Some m' ->
  akeys m' = akeys m.
Proof.
  induction asg as [|a asg IH]; intros rb m saved m'; cbn [upd_loop].
  - destruct rb; cbn; congruence.
  - destruct rb; [cbn; congruence|].
    destruct (f_get (as_lhs a) fs) as [f|]; [|cbn; congruence].
    destruct (aget bseq (as_lhs a) m) as [c|]; [|cbn; congruence].
    destruct (f_layers f) as [|t rest]; [cbn; congruence|].
    destruct (_ && _ && _).
    { destruct (operator _ _ _ _ _); try (cbn; congruence). intros H. apply IH in H. rewrite H. apply akeys_rf_update. }
    destruct (_ && _ && _).
    { intros H. apply IH in H. rewrite H. apply akeys_rf_update. }
    destruct (_ && _); [|cbn; congruence].
    destruct rest as [|t1 rest]; [cbn; congruence|].
    destruct (tclass_eqb _ _); [|cbn; congruence].
    destruct c; try (cbn; congruence). intros H. apply IH in H. rewrite H. apply akeys_rf_update.
Qed.

Lemma update_row_keys fs m asg : akeys (fst (update_row farith fs m asg)) = akeys m.
Proof.
  unfold update_row. pose proof (upd_loop_keys fs asg false m []) as K.
  destruct (upd_loop farith fs asg false m []); cbn [fst]; rewrite ?akeys_rollback; try (apply K; reflexivity).
  reflexivity.
Qed.

(** * The state of a model whose schema does not change *)

Definition cols_ok (lay : layout) (m : rfields) : Prop :=
  forall c, In c (akeys m) <-> In c (map fst (lo_fields lay)) /\ c <> lo_pk lay.

Record tinv (lay : layout) (s : mst) : Prop := {
  ti_lay : m_lay s = lay;
  ti_sd : m_sd s = [];
  ti_iffy : m_iffy s = false;
  ti_nd : NoDup (akeys (m_idx s));
  ti_row : forall k i, aget pkey_eqb k (m_idx s) = Some i ->
    exists o, nth_error (m_objs s) i = Some o /\ ro_key o = k /\ cols_ok lay (ro_fields o)
}.

(** the rows of a state *)
Definition rows_of (s : mst) : table := fun k =>
  match aget pkey_eqb k (m_idx s) with
  | Some i => match nth_error (m_objs s) i with Some o => Some (ro_fields o) | None => None end
  | None => None
  end.

Lemma tinv_new lay : tinv lay (mst_new lay).
Proof. constructor; try reflexivity; [constructor|]. cbn. discriminate. Qed.

Lemma resolve_nil o : resolve [] o = o.
Proof. reflexivity. Qed.


Lemma resolve_where_asked lay w : tuniq_is_unique (tsel_uniq (lo_ptag lay)) = true ->
  match resolve_where lay w with
  | Some l => asked lay w = Some (lit_key l)
  | None => asked lay w = None
  end.
Proof.
  intros U. unfold resolve_where, asked. destruct (aget bseq (lo_pk lay) w) as [[[] x]|]; try reflexivity.
  destruct x; destruct (tsel_uniq (lo_ptag lay)); try discriminate U; reflexivity.
Qed.

Lemma tlog_ext upd lay t t' e : (forall k, t k = t' k) -> forall k, tlog upd lay t e k = tlog upd lay t' e k.
Proof.
  intros H k. destruct e as [q r]. unfold tlog.
  destruct q; destruct r; try apply H; unfold tput; rewrite ?H; try reflexivity;
    destruct (asked lay w); try apply H; rewrite ?H; try (destruct (t' p)); unfold tput; rewrite ?H; reflexivity.
Qed.

(** statements of a history with a fixed schema *)
Definition dml_ok (q : rstmt) : Prop :=
  match q with RInsert d => data_ok d | RAlter _ _ => False | _ => True end.

Lemma scan_rows_spec lay objs cols : forall ids,
  (forall i, In i ids -> exists o, nth_error objs i = Some o) ->
  fst (scan_rows lay [] cols ids objs) = objs.
Proof.
  induction ids as [|i ids IH]; intros H; [reflexivity|]. cbn [scan_rows].
  destruct (H i (or_introl eq_refl)) as [o E]. rewrite E, resolve_nil, (upd_nth_id _ _ _ E).
  destruct (read_cols_all _ _ _ _); [|reflexivity].
  specialize (IH (fun j Hj => H j (or_intror Hj))). destruct (scan_rows lay [] cols ids objs). exact IH.
Qed.

Lemma ids_in (s : mst) n i : In i (firstn n (map snd (m_idx s))) -> exists k, In (k, i) (m_idx s).
Proof.
  intros H. assert (H2 : In i (map snd (m_idx s))) by (rewrite <- (firstn_skipn n); apply in_app_iff; auto).
  apply in_map_iff in H2 as ([k j] & <- & Hin). eauto.
Qed.

Lemma set_objs_id s : set_objs (m_objs s) s = s.
Proof. destruct s; reflexivity. Qed.

Lemma ins_row_cols lay d : lay_ok lay -> conforming lay d -> cols_ok lay (ins_row lay d).
Proof.
  intros LO [CS CF] c. unfold ins_row. unfold akeys. rewrite map_map.
  cbn [fst]. rewrite in_map_iff.
  assert (K : In c (akeys (all_of lay d)) <-> In c (map fst (lo_fields lay))).
  { destruct d as [t|m]; cbn [all_of supplies_all] in *.
    - rewrite keys_combine; [tauto|]. rewrite map_length. exact CS.
    - apply CS. }
  rewrite <- K. unfold akeys. rewrite in_map_iff. split.
  - intros ([k v] & <- & Hin). apply filter_In in Hin as [Hin HB]. cbn [fst] in *.
    split; [exists (k, v); split; auto; destruct d; exact Hin|].
    intros ->. rewrite bseq_refl in HB. discriminate.
  - intros [([k v] & <- & Hin) HN]. exists (k, v). split; auto. apply filter_In. cbn [fst] in *.
    split; [destruct d; exact Hin|]. apply negb_true_iff, bseq_neq. congruence.
Qed.

Theorem table_step lay s q s' r : lay_ok lay -> tinv lay s -> dml_ok q ->
  rstep farith order s q = (s', r) -> r <> RoUb ->
  tinv lay s' /\ forall k, rows_of s' k = tlog (fun m asg => fst (update_row farith (lo_fields lay) m asg)) lay (rows_of s) (q, r) k.
Proof.
  intros LO I HQ H HU. pose proof I as [IL IS IF IN IR].
  assert (UP : tuniq_is_unique (tsel_uniq (lo_ptag lay)) = true) by (destruct LO as (_ & _ & f & _ & _ & U); exact U).
  destruct q as [d|w asg|w|w cols|cols limit|ak ok]; cbn [rstep dml_ok] in *; [| | | | |contradiction].
  - (* INSERT *)
    unfold exec_insert in H. rewrite IF, IL in H.
    destruct (prepare_insert lay d) as [[pk row]| |] eqn:EP.
    + destruct (prepare_ok _ _ _ _ LO HQ EP) as (C & -> & ->).
      cbn [m_idx bump_dver set_dver] in H.
      destruct (aget pkey_eqb (ins_key lay d) (m_idx s)) as [i|] eqn:G.
      * inversion H; subst. split; [|reflexivity]. constructor; cbn; auto.
      * inversion H; subst. clear H. split.
        -- constructor; cbn; auto.
           ++ apply nodup_put; [apply pkey_eqb_eq|auto].
           ++ intros k i. destruct (pkey_eqb k (ins_key (m_lay s) d)) eqn:E.
              ** apply pkey_eqb_eq in E. subst k. rewrite aget_put_same by apply pkey_eqb_eq.
                 intros X; inversion X; subst. rewrite nth_error_app2, Nat.sub_diag by lia. cbn.
                 eexists. split; [reflexivity|]. split; [reflexivity|]. apply ins_row_cols; auto.
              ** rewrite aget_put_other; [|apply pkey_eqb_eq|intros ->; rewrite pkey_eqb_refl in E; discriminate].
                 intros X. destruct (IR _ _ X) as (o & E1 & E2). exists o. split; auto.
                 rewrite nth_error_app1; auto. apply nth_error_Some. congruence.
        -- intros k. cbn [tlog]. unfold rows_of, tput. cbn.
           destruct (pkey_eqb k (ins_key (m_lay s) d)) eqn:E.
           ++ apply pkey_eqb_eq in E. subst k. rewrite aget_put_same by apply pkey_eqb_eq.
              rewrite nth_error_app2, Nat.sub_diag by lia. reflexivity.
           ++ rewrite aget_put_other; [|apply pkey_eqb_eq|intros ->; rewrite pkey_eqb_refl in E; discriminate].
              destruct (aget pkey_eqb k (m_idx s)) as [i|] eqn:G2; [|reflexivity].
              destruct (IR _ _ G2) as (o & E1 & E2). rewrite nth_error_app1; auto. apply nth_error_Some. congruence.
    + inversion H; subst. split; [auto|reflexivity].
    + exfalso. eapply prepare_no_panic; eauto.
  - (* UPDATE *)
    unfold exec_update in H. rewrite IF, IL in H.
    pose proof (resolve_where_asked lay w UP) as RW.
    destruct (resolve_where lay w) as [x|].
    2: { inversion H; subst. split; auto. intros k. cbn [tlog]. rewrite RW. reflexivity. }
    destruct (aget pkey_eqb (lit_key x) (m_idx s)) as [i|] eqn:G.
    2: { inversion H; subst. split; auto. intros k. cbn [tlog]. rewrite RW.
         assert (RN : rows_of s' (lit_key x) = None) by (unfold rows_of; rewrite G; reflexivity).
         rewrite RN. reflexivity. }
    destruct (IR _ _ G) as (o & E1 & E2 & E3). rewrite E1 in H.
    assert (RO : rows_of s (lit_key x) = Some (ro_fields o)) by (unfold rows_of; rewrite G, E1; reflexivity).
    pose proof (update_row_keys (lo_fields lay) (ro_fields o) asg) as UK.
    destruct (update_row farith (lo_fields lay) (ro_fields o) asg) as [m ur] eqn:EU. cbn [fst] in UK.
    assert (KEY : forall o', ro_key o' = lit_key x -> ro_fields o' = m ->
      (forall k j, aget pkey_eqb k (m_idx s) = Some j ->
        exists o2, nth_error (upd_nth i o' (m_objs s)) j = Some o2 /\ ro_key o2 = k /\ cols_ok lay (ro_fields o2)) /\
      (forall k, match aget pkey_eqb k (m_idx s) with
                 | Some j => match nth_error (upd_nth i o' (m_objs s)) j with Some o => Some (ro_fields o) | None => None end
                 | None => None
                 end = tput (lit_key x) (Some m) (rows_of s) k)).
    { intros o' K1 K2. split.
      - intros k j X. destruct (Nat.eq_dec i j) as [<-|NE].
        + exists o'. rewrite (nth_upd_same _ _ _ _ E1). split; auto.
          destruct (IR _ _ X) as (o3 & Y1 & Y2 & Y3). rewrite E1 in Y1. inversion Y1; subst o3.
          split; [congruence|]. rewrite K2. unfold cols_ok. rewrite UK. exact E3.
        + rewrite nth_upd_other by auto. apply IR. exact X.
      - intros k. unfold tput. destruct (pkey_eqb k (lit_key x)) eqn:E.
        + apply pkey_eqb_eq in E. subst k. rewrite G, (nth_upd_same _ _ _ _ E1), K2. reflexivity.
        + unfold rows_of. destruct (aget pkey_eqb k (m_idx s)) as [j|] eqn:X; [|reflexivity].
          rewrite nth_upd_other; [reflexivity|]. intros <-.
          destruct (IR _ _ X) as (o3 & Y1 & Y2 & Y3). rewrite E1 in Y1. inversion Y1; subst o3.
          rewrite (proj2 (pkey_eqb_eq k (lit_key x))) in E by congruence. discriminate. }
    assert (FIN : r = ur /\
      (exists o' q' n', ro_key o' = lit_key x /\ ro_fields o' = m /\
         s' = set_queue q' n' (set_objs (upd_nth i o' (m_objs s)) (bump_dver s)))).
    { destruct ur; inversion H; subst; split; auto.
      - exists (mk_row (ro_key o) m (m_dver s) (ro_sv o)), (m_queue s ++ [mk_dd (m_dver s) i DkUpdate]), (m_qsize s + 1).
        split; [exact E2|]. split; reflexivity.
      - exists (with_fields m o), (m_queue s), (m_qsize s). split; [exact E2|]. split; reflexivity.
      - exists (with_fields m o), (m_queue s), (m_qsize s). split; [exact E2|]. split; reflexivity.
      - exists (with_fields m o), (m_queue s), (m_qsize s). split; [exact E2|]. split; reflexivity.
      - exists (with_fields m o), (m_queue s), (m_qsize s). split; [exact E2|]. split; reflexivity.
      - congruence. }
    clear H. destruct FIN as (-> & o' & q' & n' & K1 & K2 & ->).
    destruct (KEY o' K1 K2) as [A B]. split.
    + constructor; cbn; auto.
    + intros k. cbn [tlog]. rewrite RW, RO, EU. cbn [fst]. exact (B k).
  - (* DELETE *)
    unfold exec_delete in H. rewrite IF, IL in H.
    pose proof (resolve_where_asked lay w UP) as RW.
    destruct (resolve_where lay w) as [x|].
    2: { inversion H; subst. split; [constructor; cbn; auto|reflexivity]. }
    cbn [m_idx bump_dver set_dver] in H.
    destruct (aget pkey_eqb (lit_key x) (m_idx s)) as [i|] eqn:G.
    2: { inversion H; subst. split; [constructor; cbn; auto|reflexivity]. }
    inversion H; subst. clear H. split.
    + constructor; cbn; auto.
      * apply nodup_del; [apply pkey_eqb_eq|auto].
      * intros k j X. destruct (pkey_eqb k (lit_key x)) eqn:E.
        -- apply pkey_eqb_eq in E. subst k. rewrite aget_del_same in X by apply pkey_eqb_eq. discriminate.
        -- rewrite aget_del_other in X; [|apply pkey_eqb_eq|intros ->; rewrite pkey_eqb_refl in E; discriminate]. auto.
    + intros k. cbn [tlog]. rewrite RW. unfold tput, rows_of. cbn.
      destruct (pkey_eqb k (lit_key x)) eqn:E.
      * apply pkey_eqb_eq in E. subst k. rewrite aget_del_same by apply pkey_eqb_eq. reflexivity.
      * rewrite aget_del_other; [|apply pkey_eqb_eq|intros ->; rewrite pkey_eqb_refl in E; discriminate]. reflexivity.
  - (* SELECT *)
    unfold exec_select in H. rewrite IL, IS in H.
    assert (s' = s).
    { destruct (resolve_where lay w); [|congruence].
      destruct (aget pkey_eqb (lit_key l) (m_idx s)) as [i|] eqn:G; [|congruence].
      destruct (IR _ _ G) as (o & E1 & _). rewrite E1, resolve_nil, (upd_nth_id _ _ _ E1), set_objs_id in H.
      destruct (read_cols _ _ _ _); congruence. }
    subst s'. split; auto.
  - (* SELECT ALL *)
    unfold exec_select_all in H. rewrite IL, IS in H.
    assert (s' = s).
    { destruct (match cols with None => false | Some l => _ end); [congruence|].
      match type of H with context [scan_rows ?a ?b ?c ?ids ?e] =>
        pose proof (scan_rows_spec a e c ids) as SS; destruct (scan_rows a b c ids e) as [objs rr] end.
      cbn [fst] in SS. rewrite SS in H.
      - rewrite set_objs_id in H. congruence.
      - intros i Hi. apply ids_in in Hi as [k Hk]. apply (in_aget _ pkey_eqb_eq) in Hk; [|auto].
        destruct (IR _ _ Hk) as (o & E & _). eauto. }
    subst s'. split; auto.
Qed.

Theorem table_hist lay h s : lay_ok lay -> rhist farith order (mst_new lay) h s ->
  Forall (fun e => dml_ok (fst e)) h ->
  tinv lay s /\ forall k, rows_of s k = table_of (fun m asg => fst (update_row farith (lo_fields lay) m asg)) lay h k.
Proof.
  intros LO H. remember (mst_new lay) as s0 eqn:E0. induction H as [|s0 h s1 q s2 r H IH HS HU]; intros HF.
  - subst. split; [apply tinv_new|]. reflexivity.
  - apply Forall_app in HF as [HF HQ]. inversion HQ; subst. cbn [fst] in H2.
    destruct (IH eq_refl HF) as [I T].
    destruct (table_step lay s1 q s2 r LO I H2 HS HU) as [I2 T2]. split; auto.
    intros k. rewrite T2. unfold table_of. rewrite fold_left_app. cbn [fold_left].
    apply tlog_ext. exact T.
Qed.

(** * Outcomes *)

(** the key as SELECT shows it *)
Definition key_cell (k : pkey) : cell :=
  match k with
  | PkUInt w => CQw QU64 w | PkSInt w => CQw QS64 w | PkBin b => CBin b | PkStr b => CStr b | PkNull => CNull
  end.

(** the values of the given columns of a row with key column value [kc] *)
Definition shows (lay : layout) (kc : cell) (m : rfields) (cols : list bytes) (vals : list cell) : Prop :=
  Forall2 (fun c v => (c = lo_pk lay /\ v = kc) \/ (c <> lo_pk lay /\ aget bseq c m = Some v)) cols vals.

Lemma read_cols_ok lay kc m cols : cols_ok lay m ->
  Forall (fun c => In c (map fst (lo_fields lay))) cols ->
  exists vals, read_cols (lo_pk lay) kc m cols = Some vals /\ shows lay kc m cols vals.
Proof.
  intros CO F. induction F as [|c cols Hc F IH]; cbn [read_cols]; [exists []; split; auto; constructor|].
  destruct IH as (vals & E & SH). rewrite E.
  destruct (bseq c (lo_pk lay)) eqn:EB.
  - apply bseq_eq in EB. subst c.
    assert (G : aget bseq (lo_pk lay) m = None).
    { apply aget_none; [apply bseq_eq|]. intros X. apply CO in X. tauto. }
    rewrite G. eexists. split; [reflexivity|]. constructor; auto.
  - apply bseq_neq in EB. destruct (aget bseq c m) as [v|] eqn:G.
    + eexists. split; [reflexivity|]. constructor; auto.
    + apply (aget_none _ bseq_eq) in G. exfalso. apply G. apply CO. auto.
Qed.

Lemma read_cols_none lay kc m cols : lay_ok lay -> cols_ok lay m ->
  ~ Forall (fun c => In c (map fst (lo_fields lay))) cols -> read_cols (lo_pk lay) kc m cols = None.
Proof.
  intros (ND & _ & f & GP & _) CO F. induction cols as [|c cols IH]; [exfalso; apply F; constructor|].
  cbn [read_cols]. destruct (in_dec (list_eq_dec Byte.byte_eq_dec) c (map fst (lo_fields lay))) as [Hc|Hc].
  - rewrite IH; [|intros X; apply F; constructor; auto].
    destruct (match aget bseq c m with Some c0 => Some c0 | None => _ end); reflexivity.
  - assert (G : aget bseq c m = None).
    { apply aget_none; [apply bseq_eq|]. intros X. apply CO in X. tauto. }
    rewrite G. destruct (bseq c (lo_pk lay)) eqn:EB; [|reflexivity].
    apply bseq_eq in EB. subst c. exfalso. apply Hc. apply aget_some_key in GP; [exact GP|apply bseq_eq].
Qed.

Lemma read_cols_all_ok lay kc m cols : cols_ok lay m ->
  Forall (fun c => In c (map fst (lo_fields lay))) cols ->
  exists vals, read_cols_all (lo_pk lay) kc m cols = Some vals /\ shows lay kc m cols vals.
Proof.
  intros CO F. induction F as [|c cols Hc F IH]; cbn [read_cols_all]; [exists []; split; auto; constructor|].
  destruct IH as (vals & E & SH). rewrite E.
  destruct (bseq c (lo_pk lay)) eqn:EB.
  - apply bseq_eq in EB. subst c. eexists. split; [reflexivity|]. constructor; auto.
  - apply bseq_neq in EB. destruct (aget bseq c m) as [v|] eqn:G.
    + eexists. split; [reflexivity|]. constructor; auto.
    + apply (aget_none _ bseq_eq) in G. exfalso. apply G. apply CO. auto.
Qed.

Lemma f_has_keys k fs : f_has k fs = true <-> In k (map fst fs).
Proof. rewrite f_has_in. reflexivity. Qed.

(** the columns asked for *)
Definition wanted (lay : layout) (cols : option (list bytes)) : list bytes :=
  match cols with None => map fst (lo_fields lay) | Some l => l end.

Lemma lit_key_cell lay w l : resolve_where lay w = Some l ->
  tuniq_is_unique (tsel_uniq (lo_ptag lay)) = true -> lit_cell l = key_cell (lit_key l).
Proof.
  unfold resolve_where. destruct (aget bseq (lo_pk lay) w) as [[[] x]|]; try discriminate.
  destruct (tuniq_eqb _ _) eqn:E; [|discriminate]. intros H U; inversion H; subst.
  destruct l; try reflexivity; destruct (tsel_uniq (lo_ptag lay)); discriminate.
Qed.

Lemma select_outcome lay s w cols : lay_ok lay -> tinv lay s ->
  match asked lay w with
  | None => snd (rstep farith order s (RSelect w cols)) = RoErr EWhere
  | Some k =>
      match rows_of s k with
      | None => snd (rstep farith order s (RSelect w cols)) = RoErr ENoRow
      | Some m =>
          (Forall (fun c => In c (map fst (lo_fields lay))) (wanted lay cols) ->
           exists vals, snd (rstep farith order s (RSelect w cols)) = RoRow vals /\
             shows lay (key_cell k) m (wanted lay cols) vals) /\
          (~ Forall (fun c => In c (map fst (lo_fields lay))) (wanted lay cols) ->
           snd (rstep farith order s (RSelect w cols)) = RoErr EField)
      end
  end.
Proof.
  intros LO I. pose proof I as [IL IS IF IN IR].
  assert (UP : tuniq_is_unique (tsel_uniq (lo_ptag lay)) = true) by (destruct LO as (_ & _ & f & _ & _ & U); exact U).
  pose proof (resolve_where_asked lay w UP) as RW. cbn [rstep]. unfold exec_select. rewrite IL, IS.
  destruct (resolve_where lay w) as [x|] eqn:EW; rewrite RW; [|reflexivity].
  unfold rows_of. destruct (aget pkey_eqb (lit_key x) (m_idx s)) as [i|] eqn:G; [|reflexivity].
  destruct (IR _ _ G) as (o & E1 & E2 & E3). rewrite E1, resolve_nil.
  rewrite (lit_key_cell _ _ _ EW UP). fold (wanted lay cols).
  split; intros F.
  - destruct (read_cols_ok lay (key_cell (lit_key x)) _ _ E3 F) as (vals & E & SH). rewrite E. exists vals. split; auto.
  - rewrite (read_cols_none lay _ _ _ LO E3 F). reflexivity.
Qed.

(** ** SELECT ALL *)

Lemma scan_rows_out lay s cols : tinv lay s -> Forall (fun c => In c (map fst (lo_fields lay))) cols ->
  forall l, incl l (m_idx s) ->
  exists rows, snd (scan_rows lay [] cols (map snd l) (m_objs s)) = VOk rows /\
    Forall2 (fun k r => exists m, rows_of s k = Some m /\ shows lay (pk_cell (lo_ptag lay) k) m cols r) (map fst l) rows.
Proof.
  intros I F. pose proof I as [IL IS IF IN IR].
  induction l as [|[k i] l IH]; intros HI; cbn [map scan_rows fst snd]; [exists []; split; auto|].
  assert (G : aget pkey_eqb k (m_idx s) = Some i).
  { apply in_aget; auto; [apply pkey_eqb_eq|]. apply HI. left; auto. }
  destruct (IR _ _ G) as (o & E1 & E2 & E3). rewrite E1, resolve_nil, (upd_nth_id _ _ _ E1), E2.
  destruct (read_cols_all_ok lay (pk_cell (lo_ptag lay) k) _ _ E3 F) as (vals & E & SH). rewrite E.
  destruct IH as (rows & ER & FR); [intros x Hx; apply HI; right; auto|].
  destruct (scan_rows lay [] cols (map snd l) (m_objs s)) as [objs2 rs]. cbn [snd] in *. rewrite ER.
  eexists. split; [reflexivity|]. constructor; auto. exists (ro_fields o). split; auto.
  unfold rows_of. rewrite G, E1. reflexivity.
Qed.

Lemma select_all_outcome lay s cols limit : lay_ok lay -> tinv lay s ->
  (Forall (fun c => In c (map fst (lo_fields lay))) (wanted lay cols) ->
   (length (wanted lay cols) <= length (lo_fields lay))%nat ->
   exists all rows, NoDup all /\ (forall k, In k all <-> rows_of s k <> None) /\
     snd (rstep farith order s (RSelectAll cols limit)) = RoRows rows /\
     Forall2 (fun k r => exists m, rows_of s k = Some m /\ shows lay (pk_cell (lo_ptag lay) k) m (wanted lay cols) r)
       (firstn (N.to_nat limit) all) rows) /\
  (~ Forall (fun c => In c (map fst (lo_fields lay))) (wanted lay cols) ->
   snd (rstep farith order s (RSelectAll cols limit)) = RoErr EField).
Proof.
  intros LO I. pose proof I as [IL IS IF IN IR]. cbn [rstep]. unfold exec_select_all. rewrite IL, IS.
  fold (wanted lay cols).
  assert (BAD : match cols with
             | None => false
             | Some l => Nat.ltb (length (lo_fields lay)) (length l) || existsb (fun k => negb (f_has k (lo_fields lay))) l
             end = true <->
     ~ (Forall (fun c => In c (map fst (lo_fields lay))) (wanted lay cols) /\
        (length (wanted lay cols) <= length (lo_fields lay))%nat)).
  { unfold wanted. destruct cols as [l|].
    - rewrite orb_true_iff, Nat.ltb_lt, existsb_exists. split.
      + intros [A|(x & Hx & A)] [B C]; [lia|]. rewrite Forall_forall in B.
        apply negb_true_iff in A. rewrite (proj2 (f_has_keys _ _) (B _ Hx)) in A. discriminate.
      + intros A. destruct (Nat.ltb_spec (length (lo_fields lay)) (length l)) as [|GE]; [auto|].
        right. apply not_all_exists. intros X. apply A. split; [|lia]. exact X.
    - split; [discriminate|]. intros A. exfalso. apply A. split; [apply Forall_forall; auto|].
      rewrite map_length. lia. }
  destruct (match cols with None => false | Some l => _ end) eqn:EB.
  - apply proj1 in BAD. specialize (BAD eq_refl). split; [intros F L; exfalso; apply BAD; auto|]. intros _. reflexivity.
  - split.
    + intros F _. rewrite N2Nat.inj_min, Nat2N.id. 
      destruct (scan_rows_out lay s (wanted lay cols) I F (firstn (N.to_nat limit) (m_idx s))) as (rows & ER & FR).
      { intros x Hx. rewrite <- (firstn_skipn (N.to_nat limit) (m_idx s)). apply in_app_iff. auto. }
      exists (map fst (m_idx s)), rows. split; [exact IN|]. split; [|split].
      * intros k. unfold rows_of. destruct (aget pkey_eqb k (m_idx s)) as [i|] eqn:G.
        -- destruct (IR _ _ G) as (o & E1 & _). rewrite E1. split; [discriminate|]. intros _.
           apply aget_some_key in G; [exact G|apply pkey_eqb_eq].
        -- apply (aget_none _ pkey_eqb_eq) in G. split; [intros X; exfalso; apply G; exact X|congruence].
      * rewrite <- (map_length snd (m_idx s)), firstn_min, firstn_map. destruct (scan_rows _ _ _ _ _) as [objs2 rs]. cbn [snd] in *. rewrite ER. reflexivity.
      * rewrite firstn_map. exact FR.
    + intros NF. exfalso. destruct BAD as [_ BAD]. discriminate BAD. tauto.
Qed.
End Table.
