(** The table of acknowledged writes across flushes and restarts, and what failed flushes do. *)
From Coq Require Import List Arith NArith Lia Bool Permutation Sorted.
From Verif Require Import Bytes AMap DataModel CodecModel CodecProofs DictModel TypeModel GnsCodecModel GnsModel GnsProofs
  RowModel RowSpec RowProofs RowTable RowUpd RowAlter RowLemmas BatchModel BatchProofs.
Import ListNotations.
Local Open Scope N_scope.

(** two rows with the same value in every column (the columns of a row are a hash map) *)
Definition row_eq (a b : rfields) : Prop := forall c, aget bseq c a = aget bseq c b.
Definition orow_eq (a b : option rfields) : Prop :=
  match a, b with Some x, Some y => row_eq x y | None, None => True | _, _ => False end.

Lemma row_eq_refl a : row_eq a a. Proof. intros c. reflexivity. Qed.
Lemma row_eq_trans a b c : row_eq a b -> row_eq b c -> row_eq a c.
Proof. intros H1 H2 x. rewrite H1. apply H2. Qed.
Lemma orow_eq_refl a : orow_eq a a. Proof. destruct a; cbn; auto using row_eq_refl. Qed.
Lemma orow_eq_trans a b c : orow_eq a b -> orow_eq b c -> orow_eq a c.
Proof. destruct a, b, c; cbn; try tauto. apply row_eq_trans. Qed.
Lemma orow_eq_sym a b : orow_eq a b -> orow_eq b a.
Proof. destruct a, b; cbn; try tauto. intros H c. symmetry. apply H. Qed.

(** ** UPDATE looks at columns only *)
Definition ur_eq (a b : upd_res) : Prop :=
  match a, b with
  | UrDone x, UrDone y => row_eq x y
  | UrErr e x s, UrErr e' y s' => e = e' /\ s = s' /\ row_eq x y
  | UrPanic x, UrPanic y => row_eq x y
  | UrUb, UrUb => True
  | _, _ => False
  end.
Section Upd.
Variable farith : aop -> N -> N -> N.
Lemma row_eq_put a b k v : row_eq a b -> row_eq (rf_update k v a) (rf_update k v b).
Proof. intros H c. rewrite !aget_rf_update, H. reflexivity. Qed.
Lemma upd_loop_ext fs asg : forall rb a b saved, row_eq a b -> ur_eq (upd_loop farith fs asg rb a saved) (upd_loop farith fs asg rb b saved).
Proof.
  induction asg as [|x asg IH]; intros rb a b saved H; cbn [upd_loop].
  { destruct rb; cbn [ur_eq]; auto. }
  destruct rb; [cbn [ur_eq]; auto|]. rewrite <- (H (as_lhs x)).
  destruct (f_get (as_lhs x) fs) as [fd|]; [|cbn [ur_eq]; auto].
  destruct (aget bseq (as_lhs x) a) as [c|]; [|cbn [ur_eq]; auto].
  destruct (f_layers fd) as [|t rest]; [cbn [ur_eq]; auto|]. cbv zeta.
  destruct (_ && _ && _).
  { destruct (operator _ _ _ _ _); cbn [ur_eq]; auto. apply IH. apply row_eq_put. exact H. }
  destruct (_ && _ && _); [apply IH, row_eq_put, H|].
  destruct (_ && _); [|cbn [ur_eq]; auto].
  destruct rest as [|t1 rest]; [cbn [ur_eq]; auto|]. destruct (tclass_eqb _ _); [|cbn [ur_eq]; auto].
  destruct c; cbn [ur_eq]; auto. apply IH, row_eq_put, H.
Qed.
Lemma rollback_ext saved : forall a b, row_eq a b -> row_eq (rollback a saved) (rollback b saved).
Proof.
  unfold rollback. induction saved as [|[k v] saved IH]; intros a b H; [exact H|]. cbn [fold_left fst snd].
  apply IH, row_eq_put, H.
Qed.
Lemma update_row_ext fs a b asg : row_eq a b ->
  row_eq (fst (update_row farith fs a asg)) (fst (update_row farith fs b asg)).
Proof.
  intros H. unfold update_row. pose proof (upd_loop_ext fs asg false a b [] H) as X.
  destruct (upd_loop farith fs asg false a []); destruct (upd_loop farith fs asg false b []); cbn [ur_eq] in X; try contradiction; cbn [fst]; auto.
  destruct X as (-> & -> & X). apply rollback_ext, X.
Qed.
End Upd.

Definition teq (t t' : table) : Prop := forall k, orow_eq (t k) (t' k).
Lemma tlog_teq farith lay t t' e : teq t t' ->
  teq (tlog (fun m asg => fst (update_row farith (lo_fields lay) m asg)) lay t e)
      (tlog (fun m asg => fst (update_row farith (lo_fields lay) m asg)) lay t' e).
Proof.
  intros H k. destruct e as [q r]. unfold tlog.
  destruct q as [d|w asg|w|w cols|cols n|ak ok]; try apply H.
  - destruct r; try apply H. unfold tput. destruct (pkey_eqb _ _); [apply orow_eq_refl|apply H].
  - destruct (asked lay w) as [p|]; [|apply H]. pose proof (H p) as HP.
    destruct (t p) as [a|], (t' p) as [b|]; cbn [orow_eq] in HP; try contradiction; [|apply H].
    unfold tput. destruct (pkey_eqb _ _); [|apply H]. cbn [orow_eq]. apply update_row_ext, HP.
  - destruct r; try apply H. destruct (asked lay w) as [p|]; [|apply H]. unfold tput.
    destruct (pkey_eqb _ _); [exact Logic.I|apply H].
Qed.

(** ** Views and rows *)
Lemma view_none m k t : rinv m t -> view m k = None <-> rows_of m k = None.
Proof.
  intros R. unfold view, rows_of. destruct (aget pkey_eqb k (m_idx m)) as [i|]; [|tauto].
  destruct (nth_error (m_objs m) i); [|tauto]. split; discriminate.
Qed.
Lemma view_val m m' k : m_lay m' = m_lay m -> view m' k = view m k ->
  match rows_of m' k, rows_of m k with
  | Some a, Some b => forall c, In c (col_names (m_lay m)) -> val a c = val b c
  | None, None => True
  | _, _ => False
  end.
Proof.
  intros L H. unfold view, rows_of in *. rewrite L in H.
  destruct (aget pkey_eqb k (m_idx m')) as [i|]; [destruct (nth_error (m_objs m') i) as [o'|]|];
    (destruct (aget pkey_eqb k (m_idx m)) as [j|]; [destruct (nth_error (m_objs m) j) as [o|]|]); try discriminate H; try exact Logic.I.
  inversion H as [[H1 H2]]. unfold row_cells in H2. intros c Hc. clear -Hc H2.
  induction (col_names (m_lay m)) as [|x l IH]; [destruct Hc|]. cbn [map] in H2. inversion H2.
  destruct Hc as [->|Hc]; [assumption|auto].
Qed.
Lemma view_rows m m' t t' k : rinv m t -> rinv m' t' -> full m -> full m' -> m_lay m' = m_lay m -> view m' k = view m k ->
  orow_eq (rows_of m' k) (rows_of m k).
Proof.
  intros R R' F F' L H. pose proof (view_val _ _ _ L H) as V.
  assert (RO : forall mm a, rows_of mm k = Some a -> exists i o, nth_error (m_objs mm) i = Some o /\ a = ro_fields o).
  { intros mm a. unfold rows_of. destruct (aget pkey_eqb k (m_idx mm)) as [i|]; [|discriminate].
    destruct (nth_error (m_objs mm) i) as [o|] eqn:E; [|discriminate]. intros X. inversion X. eauto. }
  destruct (rows_of m' k) as [a|] eqn:EA, (rows_of m k) as [b|] eqn:EB; cbn [orow_eq]; try contradiction; [|exact Logic.I].
  destruct (RO _ _ EA) as (i & o & E1 & ->). destruct (RO _ _ EB) as (j & p & E2 & ->). clear RO.
  intros c. pose proof (ri_cols _ _ R _ _ E2 c) as C2. pose proof (ri_cols _ _ R' _ _ E1 c) as C1.
  pose proof (F _ _ E2 c) as F2. pose proof (F' _ _ E1 c) as F1. rewrite L in *.
  destruct (aget bseq c (ro_fields o)) as [x|] eqn:G1.
  - pose proof (aget_some_key _ bseq_eq _ _ _ G1) as I1. specialize (V c (C1 I1)). unfold val in V. rewrite G1 in V.
    destruct (aget bseq c (ro_fields p)) as [y|] eqn:G2; [congruence|].
    exfalso. apply (aget_none _ bseq_eq) in G2. apply G2, F2, C1, I1.
  - destruct (aget bseq c (ro_fields p)) as [y|] eqn:G2; [|reflexivity].
    exfalso. apply (aget_none _ bseq_eq) in G1. apply G1, F1, C2. apply (aget_some_key _ bseq_eq _ _ _ G2).
Qed.

Lemma binv_tinv {PA : past} s lay : binv s -> m_lay (b_m s) = lay -> m_sd (b_m s) = [] -> tinv lay (b_m s).
Proof.
  intros B L SD. destruct B as [R IF BD Q IN BN FI V FU CN]. destruct (FU SD) as [F1 _].
  constructor; auto; [apply (ri_g _ _ R)|]. intros k i G. destruct (gi_row _ (ri_g _ _ R) _ _ G) as (o & E & K).
  exists o. split; [exact E|]. split; [exact K|]. intros c. pose proof (col_names_in lay c) as CI. subst lay. split.
  - intros H. apply (ri_cols _ _ R _ _ E) in H. tauto.
  - intros H. apply (F1 _ _ E). tauto.
Qed.

(** the key has a change in the queue *)
Definition queued (s : bst) (k : pkey) : Prop :=
  exists d o, In d (m_queue (b_m s)) /\ nth_error (m_objs (b_m s)) (dd_row d) = Some o /\ ro_key o = k.

Lemma unqueued_written {PA : past} s k : binv s -> ~ queued s k -> kfold (ncols (b_m s)) k (written s) None = view (b_m s) k.
Proof.
  intros B NQ. rewrite <- (bi_view _ B k), kfold_app. symmetry. apply kfold_other.
  apply Forall_forall. intros e He EK. apply NQ. unfold pend in He. apply in_flat_map in He as (d & D1 & D2).
  destruct (pend1_key _ _ _ D2) as (o & O1 & O2). exists d, o. split; [exact D1|]. split; [exact O1|congruence].
Qed.

Section Hist.
Context {PA : past}.
Variable farith : aop -> N -> N -> N.
Variable order : fieldmap -> fieldmap.
Hypothesis order_perm : forall l, Permutation (order l) l.

Lemma restart_view s : binv s -> b_fl s = None ->
  exists s', bstep farith order s BRestart = (s', BoDone) /\ m_lay (b_m s') = m_lay (b_m s) /\ m_sd (b_m s') = m_sd (b_m s) /\
    m_queue (b_m s') = [] /\ (exists t, rinv (b_m s') t) /\ m_iffy (b_m s') = false /\ b_fl s' = None /\ b_file s' = b_file s /\
    (m_sd (b_m s) = [] -> full (b_m s')) /\
    (forall k, ~ queued s k -> view (b_m s') k = view (b_m s) k).
Proof.
  intros B NF. destruct (restart_ok farith order s B NF) as (m & E & L & SD & Q & QS & IF & R & V & FU & DV).
  eexists. split; [exact E|]. cbn [b_m b_fl b_file]. repeat (split; [solve [eauto]|]).
  intros k NQ. rewrite V, <- (unqueued_written s k B NQ). unfold written, flying. rewrite NF, app_nil_r. reflexivity.
Qed.

(** steps of the flusher show nothing *)
Lemma quiet_view s o s' r : binv s -> bstep farith order s o = (s', r) -> calm s o r ->
  (match o with BStmt _ => False | BRestart => m_queue (b_m s) = [] | _ => True end) -> r <> BoUb ->
  m_lay (b_m s') = m_lay (b_m s) /\ m_sd (b_m s') = m_sd (b_m s) /\ forall k, view (b_m s') k = view (b_m s) k.
Proof.
  intros B H C K NU. destruct o as [q| |i|w|w| |]; [destruct K| | | | | |].
  - cbn [bstep] in H. inversion H; subst. auto.
  - cbn [bstep] in H. destruct (b_fl s); [inversion H; subst; auto|].
    destruct (nth_error (b_tasks s) i); [|inversion H; subst; auto]. cbv zeta in H.
    destruct (m_iffy (b_m s)); [inversion H; subst; auto|]. destruct (n =? 0); inversion H; subst; auto.
  - cbn [calm] in C. subst w. cbn [bstep] in H. destruct (b_fl s) as [f|] eqn:EF; [|inversion H; subst; auto].
    destruct (fl_want f <=? fl_i f); [inversion H; subst; auto|].
    destruct (m_queue (b_m s)) as [|d q] eqn:EQ; [inversion H; subst; auto|]. cbv zeta in H.
    destruct (flush_one (set_queue q (m_qsize (b_m s)) (b_m s)) d) as [m2 res] eqn:EO.
    pose proof (bi_q _ B) as Q. rewrite EQ in Q. inversion Q as [|? ? Q1 Q2]; subst.
    assert (NRU : res <> SrUb) by (intros ->; inversion H; subst; congruence).
    destruct (flush_one_ok _ _ _ _ _ (bi_r _ B) EQ Q1 res EO NRU) as [S _].
    assert (X : m_lay m2 = m_lay (b_m s) /\ m_sd m2 = m_sd (b_m s) /\ forall k, view m2 k = view (b_m s) k).
    { split; [apply (so_lay _ _ S)|]. split; [apply (so_sd _ _ S)|]. intros k. rewrite (soft_view _ _ k S). reflexivity. }
    destruct res; [| |congruence]; inversion H; subst; exact X.
  - cbn [calm] in C. subst w. cbn [bstep] in H. destruct (b_fl s); [|inversion H; subst; auto].
    destruct (_ <? _); inversion H; subst; auto.
  - cbn [bstep] in H. destruct (b_fl s); [inversion H; subst; auto|]. destruct (b_torn s); inversion H; subst; auto.
  - destruct (b_fl s) eqn:EF; [cbn [bstep] in H; rewrite EF in H; inversion H; subst; auto|].
    destruct (restart_view s B EF) as (s2 & E & L & SD & Q & _ & _ & _ & _ & _ & V). rewrite E in H. inversion H; subst.
    split; [exact L|]. split; [exact SD|]. intros k. apply V. intros (d & o & D & _). rewrite K in D. destruct D.
Qed.

(** the statements of a history *)
Definition stmts (h : list (bop * bout)) : list (rstmt * rout) :=
  flat_map (fun e => match e with (BStmt q, BoStmt r) => [(q, r)] | _ => [] end) h.

(** histories without ALTER MODEL, whose restarts happen with an empty queue, from any state *)
Inductive plain_from (s0 : bst) : list (bop * bout) -> bst -> Prop :=
| pf_nil : plain_from s0 [] s0
| pf_snoc h s o s' r : plain_from s0 h s -> bstep farith order s o = (s', r) -> calm s o r ->
    (match o with BStmt (RAlter _ _) => False | BRestart => m_queue (b_m s) = [] | _ => True end) ->
    r <> BoUb -> r <> BoStmt RoUb -> plain_from s0 (h ++ [(o, r)]) s'.
Lemma plain_from_calm s0 h s : plain_from s0 h s -> calm_from farith order s0 h s.
Proof. induction 1; [constructor|econstructor; eauto]. Qed.

Lemma plain_from_table lay s0 h s : lay_ok lay -> binv s0 -> lastok s0 -> m_lay (b_m s0) = lay -> m_sd (b_m s0) = [] ->
  plain_from s0 h s ->
  binv s /\ m_lay (b_m s) = lay /\ m_sd (b_m s) = [] /\
  teq (rows_of (b_m s)) (fold_left (tlog (fun m asg => fst (update_row farith (lo_fields lay) m asg)) lay) (stmts h) (rows_of (b_m s0))).
Proof.
  intros LO B0 K0 L0 SD0 H. induction H as [|h s o s' r H IH HS C K N1 N2].
  { split; [exact B0|]. split; [exact L0|]. split; [exact SD0|]. intros k. apply orow_eq_refl. }
  destruct IH as (B & L & SD & T).
  destruct (calm_from_inv farith order order_perm _ _ _ B0 K0 (plain_from_calm _ _ _ H)) as [_ LK].
  pose proof (binv_any farith order order_perm s o s' r B LK HS C N1 N2) as B'. split; [exact B'|].
  assert (X : m_lay (b_m s') = lay /\ m_sd (b_m s') = [] /\
    forall k, orow_eq (rows_of (b_m s') k)
      (fold_left (tlog (fun m asg => fst (update_row farith (lo_fields lay) m asg)) lay) (stmts [(o, r)]) (rows_of (b_m s)) k)).
  { assert (QV : (match o with BStmt _ => False | BRestart => m_queue (b_m s) = [] | _ => True end) -> stmts [(o, r)] = [] ->
      m_lay (b_m s') = lay /\ m_sd (b_m s') = [] /\
      forall k, orow_eq (rows_of (b_m s') k)
        (fold_left (tlog (fun m asg => fst (update_row farith (lo_fields lay) m asg)) lay) (stmts [(o, r)]) (rows_of (b_m s)) k)).
    { intros K2 ->. destruct (quiet_view s o s' r B HS C K2 N1) as (L' & SD' & V).
      rewrite L', SD'. split; [exact L|]. split; [exact SD|]. intros k. cbn [fold_left].
      apply (view_rows _ _ _ _ k (bi_r _ B) (bi_r _ B')); auto; [apply (bi_full _ B SD)|apply (bi_full _ B'); congruence]. }
    destruct o as [q| |i|w|w| |].
    1: { clear QV. assert (NA : match q with RAlter _ _ => False | _ => True end) by (destruct q; auto).
         cbn [bstep] in HS. destruct (rstep farith order (b_m s) q) as [m' r0] eqn:E.
         assert (E2 : s' = with_m m' s /\ r = BoStmt r0).
         { destruct q; try (inversion HS; subst; auto). destruct NA. }
         destruct E2 as [-> ->]. cbn [stmts flat_map app fold_left with_m b_m].
         assert (DO : dml_ok q) by (destruct q; cbn [dml_ok calm] in *; auto).
         destruct (table_step farith order lay (b_m s) q m' r0 LO (binv_tinv s lay B L SD) DO E) as [I2 T2]; [congruence|].
         destruct I2. split; [assumption|]. split; [assumption|]. intros k. rewrite T2. apply orow_eq_refl. }
    all: apply QV; [exact K|reflexivity]. }
  destruct X as (L' & SD' & V). split; [exact L'|]. split; [exact SD'|].
  intros k. unfold stmts in *. rewrite flat_map_app, fold_left_app.
  eapply orow_eq_trans; [apply V|].
  enough (Z : forall l t t', teq t t' -> teq (fold_left (tlog (fun m asg => fst (update_row farith (lo_fields lay) m asg)) lay) l t)
                  (fold_left (tlog (fun m asg => fst (update_row farith (lo_fields lay) m asg)) lay) l t')) by (apply Z; exact T).
  induction l as [|e l IHl]; intros t t' HT; [exact HT|]. cbn [fold_left]. apply IHl, tlog_teq, HT.
Qed.

(** ** SELECT depends on columns only *)
Lemma read_cols_ext pk kc a b cols : row_eq a b -> read_cols pk kc a cols = read_cols pk kc b cols.
Proof. intros H. induction cols as [|c cols IH]; cbn [read_cols]; [reflexivity|]. rewrite H, IH. reflexivity. Qed.
Lemma select_ext m m' w cols k : ginv m -> ginv m' -> m_lay m' = m_lay m -> m_sd m = [] -> m_sd m' = [] ->
  asked (m_lay m) w = Some k -> orow_eq (rows_of m' k) (rows_of m k) ->
  snd (rstep farith order m' (RSelect w cols)) = snd (rstep farith order m (RSelect w cols)).
Proof.
  intros G G' L SD SD' HW H.
  assert (UP : tuniq_is_unique (tsel_uniq (lo_ptag (m_lay m))) = true) by (destruct (gi_lay _ G) as (_ & _ & f & _ & _ & U); exact U).
  pose proof (resolve_where_asked (m_lay m) w UP) as RW. cbn [rstep]. unfold exec_select. rewrite L.
  destruct (resolve_where (m_lay m) w) as [x|]; [|congruence]. rewrite HW in RW. inversion RW; subst k.
  unfold rows_of in H.
  destruct (aget pkey_eqb (lit_key x) (m_idx m')) as [i'|] eqn:E1.
  2: { destruct (aget pkey_eqb (lit_key x) (m_idx m)) as [i|] eqn:E2; [|reflexivity].
       destruct (gi_row _ G _ _ E2) as (o & E3 & _). rewrite E3 in H. destruct H. }
  destruct (gi_row _ G' _ _ E1) as (o' & E3 & K3). rewrite E3 in *.
  destruct (aget pkey_eqb (lit_key x) (m_idx m)) as [i|] eqn:E2; [|destruct H].
  destruct (gi_row _ G _ _ E2) as (o & E4 & K4). rewrite E4 in *. cbn [orow_eq] in H. cbv zeta.
  rewrite SD, SD', !resolve_nil, (read_cols_ext _ _ _ _ _ H). destruct (read_cols _ _ _ _); reflexivity.
Qed.
Lemma from_no_alter lay s0 h s : binv s0 -> lastok s0 -> m_lay (b_m s0) = lay -> m_sd (b_m s0) = [] -> calm_from farith order s0 h s ->
  Forall (fun e => match fst e with BStmt (RAlter _ _) => False | _ => True end) h -> m_sd (b_m s) = [] /\ m_lay (b_m s) = lay.
Proof.
  intros B0 K0 L0 SD0 H. induction H as [|h s o s' r H IH HS C N1 N2]; intros F; [split; assumption|].
  apply Forall_app in F as [F1 F2]. inversion F2 as [|? ? F3 _]; subst. cbn [fst] in F3. destruct (IH F1) as [SD L].
  pose proof (proj1 (calm_from_inv farith order order_perm _ _ _ B0 K0 H)) as B.
  destruct o as [q| |i|w|w| |].
  - cbn [bstep] in HS. destruct (rstep farith order (b_m s) q) as [m' r0] eqn:E.
    assert (E2 : s' = with_m m' s /\ r = BoStmt r0) by (destruct q; try (inversion HS; subst; auto); destruct F3).
    destruct E2 as [-> ->]. cbn [with_m b_m].
    destruct (grow_step farith order order_perm (b_m s) q m' r0 (ri_g _ _ (bi_r _ B))) as (_ & _ & _ & _ & X & _); auto; [destruct q; auto|congruence|].
    destruct q; try (destruct X; split; congruence). destruct F3.
  - destruct (quiet_view s _ s' r B HS C Logic.I N1) as (A1 & A2 & _). split; congruence.
  - destruct (quiet_view s _ s' r B HS C Logic.I N1) as (A1 & A2 & _). split; congruence.
  - destruct (quiet_view s _ s' r B HS C Logic.I N1) as (A1 & A2 & _). split; congruence.
  - destruct (quiet_view s _ s' r B HS C Logic.I N1) as (A1 & A2 & _). split; congruence.
  - destruct (quiet_view s _ s' r B HS C Logic.I N1) as (A1 & A2 & _). split; congruence.
  - destruct (b_fl s) eqn:EF; [cbn [bstep] in HS; rewrite EF in HS; inversion HS; subst; auto|].
    destruct (restart_view s B EF) as (s2 & E & A1 & A2 & _). rewrite E in HS. inversion HS; subst. split; congruence.
Qed.
End Hist.

Section Hist0.
Variable farith : aop -> N -> N -> N.
Variable order : fieldmap -> fieldmap.
Hypothesis order_perm : forall l, Permutation (order l) l.
(** histories without ALTER MODEL, whose restarts happen with an empty queue *)
Inductive plain_hist (lay : layout) : list (bop * bout) -> bst -> Prop :=
| ph_nil : plain_hist lay [] (bst_new lay)
| ph_snoc h s o s' r : plain_hist lay h s -> bstep farith order s o = (s', r) -> calm s o r ->
    (match o with BStmt (RAlter _ _) => False | BRestart => m_queue (b_m s) = [] | _ => True end) ->
    r <> BoUb -> r <> BoStmt RoUb -> plain_hist lay (h ++ [(o, r)]) s'.

Lemma plain_calm lay h s : plain_hist lay h s -> calm_hist farith order lay h s.
Proof. induction 1; [constructor|econstructor; eauto]. Qed.

Lemma plain_new lay h s : plain_hist lay h s -> plain_from farith order (bst_new lay) h s.
Proof. induction 1; [constructor|econstructor; eauto]. Qed.
Lemma calm_new lay h s : calm_hist farith order lay h s -> calm_from farith order (bst_new lay) h s.
Proof. induction 1; [constructor|econstructor; eauto]. Qed.
Lemma plain_table lay h s : lay_ok lay -> plain_hist lay h s ->
  binv s /\ m_lay (b_m s) = lay /\ m_sd (b_m s) = [] /\
  teq (rows_of (b_m s)) (table_of (fun m asg => fst (update_row farith (lo_fields lay) m asg)) lay (stmts h)).
Proof.
  intros LO H.
  exact (plain_from_table farith order order_perm lay _ h s LO (binv_new lay LO) (lastok_new lay) eq_refl eq_refl (plain_new _ _ _ H)).
Qed.
Lemma plain_no_alter lay h s : lay_ok lay -> calm_hist farith order lay h s ->
  Forall (fun e => match fst e with BStmt (RAlter _ _) => False | _ => True end) h -> m_sd (b_m s) = [] /\ m_lay (b_m s) = lay.
Proof.
  intros LO H F.
  exact (from_no_alter farith order order_perm lay _ h s (binv_new lay LO) (lastok_new lay) eq_refl eq_refl (calm_new _ _ _ H) F).
Qed.
End Hist0.

(** * A flush without failures drains the queue *)

Definition flush_ops (n : N) : list bop := BBegin 0 :: repeat (BStep WoOk) (N.to_nat n) ++ [BEnd WoOk].
(** what the executors do at shutdown: the posted tasks, then one more for what is still counted
    (fractal/mgr.rs:283-290, 427-433) *)
Definition shutdown_ops (s : bst) : list bop :=
  flat_map flush_ops (b_tasks s) ++ BTake :: flush_ops (m_qsize (b_m s)).

Section Drain.
Context {PA : past}.
Variable farith : aop -> N -> N -> N.
Variable order : fieldmap -> fieldmap.
Hypothesis order_perm : forall l, Permutation (order l) l.

Fixpoint brun (s : bst) (ops : list bop) : bst * list bout :=
  match ops with
  | [] => (s, [])
  | o :: ops' => let '(s1, r) := bstep farith order s o in let '(s2, rs) := brun s1 ops' in (s2, r :: rs)
  end.
Lemma brun_app a : forall s b, brun s (a ++ b) =
  (fst (brun (fst (brun s a)) b), snd (brun s a) ++ snd (brun (fst (brun s a)) b)).
Proof.
  induction a as [|o a IH]; intros s b; cbn [app brun fst snd]; [destruct (brun s b); reflexivity|].
  destruct (bstep farith order s o) as [s1 r]. rewrite IH. destruct (brun s1 a) as [s2 rs]. reflexivity.
Qed.

Definition no_null_q (m : mst) : Prop :=
  Forall (fun d => forall o, nth_error (m_objs m) (dd_row d) = Some o -> ro_key o <> PkNull) (m_queue m).
Definition fine (r : bout) : Prop := r <> BoUb /\ r <> BoPanic /\ r <> BoFail.

(** the state shows the same rows *)
Definition same_rows (s s' : bst) : Prop :=
  m_lay (b_m s') = m_lay (b_m s) /\ m_sd (b_m s') = m_sd (b_m s) /\ forall k, view (b_m s') k = view (b_m s) k.
Lemma same_rows_refl s : same_rows s s. Proof. repeat split. Qed.
Lemma same_rows_trans a b c : same_rows a b -> same_rows b c -> same_rows a c.
Proof. intros (A1 & A2 & A3) (B1 & B2 & B3). split; [congruence|]. split; [congruence|]. intros k. rewrite B3. apply A3. Qed.

Lemma step_ok s f : binv s -> b_fl s = Some f -> fl_i f < fl_want f -> no_null_q (b_m s) ->
  exists s', bstep farith order s (BStep WoOk) = (s', BoDone) /\ binv s' /\ no_null_q (b_m s') /\ same_rows s s' /\
    b_tasks s' = b_tasks s /\ m_qsize (b_m s') = m_qsize (b_m s) /\ b_file s' = b_file s /\ b_torn s' = b_torn s /\
    exists f', b_fl s' = Some f' /\ fl_want f' = fl_want f /\ fl_i f' = fl_i f + 1.
Proof.
  intros B EF LT NN. destruct (bstep farith order s (BStep WoOk)) as [s' r] eqn:H.
  pose proof H as H0. cbn [bstep] in H. rewrite EF in H. destruct (N.leb_spec (fl_want f) (fl_i f)); [lia|].
  destruct (m_queue (b_m s)) as [|d q] eqn:EQ.
  { exfalso. pose proof (bi_cnt _ B) as CN. rewrite EQ in CN. unfold claimed in CN. rewrite EF in CN. cbn [length N.of_nat] in CN. lia. }
  cbv zeta in H. destruct (flush_one (set_queue q (m_qsize (b_m s)) (b_m s)) d) as [m2 res] eqn:EO.
  pose proof (bi_q _ B) as Q. rewrite EQ in Q. inversion Q as [|? ? Q1 Q2]; subst.
  unfold no_null_q in NN. rewrite EQ in NN. inversion NN as [|? ? N1 N2]; subst.
  assert (NRU : res <> SrUb).
  { intros ->. destruct Q1 as (o & E1 & _). specialize (N1 o E1). unfold flush_one in EO. cbn [m_objs set_queue m_sd m_lay] in EO. rewrite E1 in EO.
    destruct (dd_kind d); destruct (ro_key o); try congruence; try discriminate EO; destruct (dd_ver d <? ro_rev o); try discriminate EO. }
  destruct (flush_one_ok _ _ _ _ _ (bi_r _ B) EQ Q1 res EO NRU) as [S RES].
  assert (ND : r <> BoUb) by (destruct res; [| |congruence]; inversion H; subst; discriminate).
  pose proof (binv_step farith order s s' r B H0 ND) as B'.
  assert (X : no_null_q m2).
  { unfold no_null_q. rewrite (so_queue _ _ S). cbn [m_queue set_queue]. eapply Forall_impl; [|exact N2]. cbn beta. intros x HX o E.
    destruct (soft_back _ _ _ _ S E) as (o1 & E1 & K & _). rewrite K. apply HX. exact E1. }
  assert (Y : m_lay m2 = m_lay (b_m s) /\ m_sd m2 = m_sd (b_m s) /\ forall k, view m2 k = view (b_m s) k).
  { split; [apply (so_lay _ _ S)|]. split; [apply (so_sd _ _ S)|]. intros k. rewrite (soft_view _ _ k S). reflexivity. }
  pose proof (so_qsize _ _ S) as QS. cbn [m_qsize set_queue] in QS.
  destruct res; [| |congruence]; inversion H; subst; (eexists; split; [reflexivity|]); cbn [b_m b_tasks b_file b_fl b_torn] in *;
    (split; [exact B'|]); (split; [exact X|]); (split; [exact Y|]); (split; [reflexivity|]); (split; [exact QS|]);
    (split; [reflexivity|]); (split; [reflexivity|]); eexists; (split; [reflexivity|]); split; reflexivity.
Qed.

Lemma steps_ok n : forall s f, binv s -> b_fl s = Some f -> (N.to_nat (fl_want f - fl_i f) = n)%nat -> no_null_q (b_m s) ->
  exists s', brun s (repeat (BStep WoOk) n) = (s', repeat BoDone n) /\ binv s' /\ no_null_q (b_m s') /\ same_rows s s' /\
    b_tasks s' = b_tasks s /\ m_qsize (b_m s') = m_qsize (b_m s) /\ b_file s' = b_file s /\ b_torn s' = b_torn s /\
    exists f', b_fl s' = Some f' /\ fl_want f' <= fl_i f'.
Proof.
  induction n as [|n IH]; intros s f B EF EN NN; cbn [repeat brun].
  { exists s. split; [reflexivity|]. repeat (split; [solve [auto using same_rows_refl]|]). exists f. split; [exact EF|]. lia. }
  destruct (step_ok s f B EF ltac:(lia) NN) as (s1 & E1 & B1 & N1 & S1 & T1 & Q1 & F1 & TO1 & f1 & EF1 & W1 & I1). rewrite E1.
  destruct (IH s1 f1 B1 EF1 ltac:(rewrite W1, I1; lia) N1) as (s2 & E2 & B2 & N2 & S2 & T2 & Q2 & F2 & TO2 & f2 & EF2 & W2). rewrite E2.
  exists s2. split; [reflexivity|]. split; [exact B2|]. split; [exact N2|]. split; [eapply same_rows_trans; eauto|].
  repeat (split; [congruence|]). exists f2. auto.
Qed.

Lemma brun_off n s : b_fl s = None -> brun s (repeat (BStep WoOk) n) = (s, repeat BoOff n).
Proof. intros E. induction n as [|n IH]; cbn [repeat brun]; [reflexivity|]. cbn [bstep]. rewrite E, IH. reflexivity. Qed.

Lemma flush_ok s n ts : binv s -> b_fl s = None -> b_tasks s = n :: ts -> no_null_q (b_m s) ->
  exists s', fst (brun s (flush_ops n)) = s' /\ Forall fine (snd (brun s (flush_ops n))) /\ binv s' /\ no_null_q (b_m s') /\
    same_rows s s' /\ b_fl s' = None /\ b_tasks s' = ts /\ m_qsize (b_m s') = m_qsize (b_m s) /\
    (exists bs, b_file s' = b_file s ++ bs).
Proof.
  intros B NF ET NN. unfold flush_ops. cbn [brun]. destruct (bstep farith order s (BBegin 0)) as [s1 r1] eqn:E1.
  pose proof (binv_begin farith order s 0%nat s1 r1 B E1) as B1.
  cbn [bstep] in E1. rewrite NF, ET in E1. cbn [nth_error del_nth firstn skipn app] in E1. rewrite (bi_iffy _ B) in E1.
  rewrite brun_app. destruct (N.eqb_spec n 0) as [->|NZ].
  - inversion E1; subst; clear E1. cbn [N.to_nat repeat brun fst snd app]. cbn [bstep b_fl brun]. cbn [fst snd].
    eexists. split; [reflexivity|].
    split; [repeat constructor; discriminate|]. split; [exact B1|]. split; [exact NN|]. split; [split; [reflexivity|]; split; [reflexivity|]; intros k; reflexivity|].
    split; [reflexivity|]. split; [reflexivity|]. split; [reflexivity|]. exists []. cbn [b_file]. rewrite app_nil_r. reflexivity.
  - inversion E1; subst; clear E1. match goal with |- context [brun ?x (repeat _ _)] => set (s1 := x) in * end.
    assert (EN : N.to_nat (n - 0) = N.to_nat n) by (rewrite N.sub_0_r; reflexivity).
    destruct (steps_ok (N.to_nat n) s1 _ B1 eq_refl EN NN) as (s2 & E2 & B2 & N2 & S2 & T2 & Q2 & F2 & TO2 & f2 & EF2 & W2).
    rewrite E2. cbn [fst snd brun].
    destruct (bstep farith order s2 (BEnd WoOk)) as [s3 r3] eqn:E3. pose proof (binv_end farith order s2 s3 r3 B2 E3) as B3.
    cbn [bstep] in E3. rewrite EF2 in E3. destruct (N.ltb_spec (fl_i f2) (fl_want f2)); [lia|]. inversion E3; subst; clear E3.
    cbn [fst snd]. eexists. split; [reflexivity|].
    split. { constructor; [repeat split; discriminate|]. apply Forall_app. split; [|constructor; [repeat split; discriminate|constructor]].
             clear. induction (N.to_nat n); cbn [repeat]; constructor; [repeat split; discriminate|assumption]. }
    split; [exact B3|]. split; [exact N2|]. split; [exact S2|]. split; [reflexivity|]. split; [exact T2|]. split; [exact Q2|].
    cbn [b_file]. rewrite F2. cbn [b_file s1]. eexists. reflexivity.
Qed.

Lemma flushes_ok ts : forall s, binv s -> b_fl s = None -> b_tasks s = ts -> no_null_q (b_m s) ->
  exists s', fst (brun s (flat_map flush_ops ts)) = s' /\ Forall fine (snd (brun s (flat_map flush_ops ts))) /\ binv s' /\ no_null_q (b_m s') /\
    same_rows s s' /\ b_fl s' = None /\ b_tasks s' = [] /\ m_qsize (b_m s') = m_qsize (b_m s) /\
    (exists bs, b_file s' = b_file s ++ bs).
Proof.
  induction ts as [|n ts IH]; intros s B NF ET NN; cbn [flat_map].
  { exists s. split; [reflexivity|]. split; [constructor|]. repeat (split; [solve [auto using same_rows_refl]|]). exists []. rewrite app_nil_r. reflexivity. }
  rewrite brun_app. destruct (flush_ok s n ts B NF ET NN) as (s1 & E1 & R1 & B1 & N1 & S1 & F1 & T1 & Q1 & bs1 & FI1).
  rewrite E1 in *. destruct (IH s1 B1 F1 T1 N1) as (s2 & E2 & R2 & B2 & N2 & S2 & F2 & T2 & Q2 & bs2 & FI2).
  cbn [fst snd]. exists s2. split; [exact E2|]. split; [apply Forall_app; auto|].
  split; [exact B2|]. split; [exact N2|]. split; [eapply same_rows_trans; eauto|]. split; [exact F2|]. split; [exact T2|].
  split; [congruence|]. exists (bs1 ++ bs2). rewrite FI2, FI1, app_assoc. reflexivity.
Qed.

Lemma shutdown_ok s : binv s -> b_fl s = None -> no_null_q (b_m s) ->
  exists s', fst (brun s (shutdown_ops s)) = s' /\ Forall fine (snd (brun s (shutdown_ops s))) /\ binv s' /\
    same_rows s s' /\ b_fl s' = None /\ b_tasks s' = [] /\ m_queue (b_m s') = [] /\ (exists bs, b_file s' = b_file s ++ bs).
Proof.
  intros B NF NN. unfold shutdown_ops.
  destruct (flushes_ok (b_tasks s) s B NF eq_refl NN) as (s1 & E1 & R1 & B1 & N1 & S1 & F1 & T1 & Q1 & bs1 & FI1).
  rewrite brun_app, E1. cbn [fst snd brun].
  destruct (bstep farith order s1 BTake) as [s2 r2] eqn:E2. pose proof (binv_take farith order s1 s2 r2 B1 E2) as B2.
  cbn [bstep] in E2. apply pair_equal_spec in E2 as [E2a <-].
  assert (F2 : b_fl s2 = None) by (rewrite <- E2a; exact F1).
  assert (T2 : b_tasks s2 = [m_qsize (b_m s)]) by (rewrite <- E2a; cbn [b_tasks]; rewrite T1, Q1; reflexivity).
  assert (N2 : no_null_q (b_m s2)) by (rewrite <- E2a; exact N1).
  assert (S2 : same_rows s1 s2) by (rewrite <- E2a; split; [reflexivity|]; split; [reflexivity|]; intros k; reflexivity).
  destruct (flush_ok s2 _ [] B2 F2 T2 N2) as (s3 & E3 & R3 & B3 & N3 & S3 & F3 & T3 & Q3 & bs3 & FI3).
  destruct (brun s2 (flush_ops (m_qsize (b_m s)))) as [s3' rs3]. cbn [fst snd] in *. subst s3'.
  exists s3. split; [reflexivity|]. split; [apply Forall_app; split; [exact R1|constructor; [repeat split; discriminate|exact R3]]|].
  split; [exact B3|]. split; [eapply same_rows_trans; [exact S1|]; eapply same_rows_trans; eauto|]. split; [exact F3|]. split; [exact T3|].
  split.
  - pose proof (bi_cnt _ B3) as CN. unfold claimed in CN. rewrite F3, T3, Q3 in CN.
    assert (Q0 : m_qsize (b_m s2) = 0) by (rewrite <- E2a; reflexivity). rewrite Q0 in CN.
    cbn [sumN fold_right] in CN. destruct (m_queue (b_m s3)); [reflexivity|]. cbn [length] in CN. lia.
  - exists (bs1 ++ bs3). rewrite FI3. assert (b_file s2 = b_file s1) as -> by (rewrite <- E2a; reflexivity). rewrite FI1, app_assoc. reflexivity.
Qed.
End Drain.
