(** What happens after an upgrade: restart at once, and writing before the first restart. *)
From Coq Require Import List Arith NArith Lia Bool Permutation.
From Verif Require Import Bytes AMap DataModel CodecModel TypeModel GnsCodecModel GnsModel
  RowModel RowSpec RowProofs RowTable RowUpd RowAlter RowLemmas BatchModel BatchProofs BatchTable
  UpgradeModel UpgradeSpec UpgradeProofs.
Import ListNotations.
Local Open Scope N_scope.

(** ** The batch of an upgrade as the beginning of a file *)

Lemma max_txn_ge es : forall a, a <= max_txn a es.
Proof. induction es as [|e es IH]; intros a; [apply N.le_refl|]. cbn [max_txn fold_left]. specialize (IH (N.max a (be_txn e))). unfold max_txn in IH. lia. Qed.
Lemma top_max es : forall t a, t <= a + 1 -> top_txn t es <= max_txn a es + 1.
Proof. induction es as [|e es IH]; intros t a L; [exact L|]. cbn [top_txn max_txn fold_left]. apply IH. lia. Qed.
Lemma max_full s ix : Permutation ix (m_idx s) -> max_txn 0 (flat_map (full_event s) ix) = max_rev s.
Proof.
  intros P. unfold max_rev. apply max_perm. induction P; cbn [flat_map]; auto.
  - apply Permutation_app_head. assumption.
  - rewrite !app_assoc. apply Permutation_app_tail, Permutation_app_comm.
  - eapply Permutation_trans; eassumption.
Qed.

Lemma past_ok s ix : NoDup (akeys ix) -> Permutation ix (m_idx s) -> forall m t, rinv m t ->
  fits (ncols m) (evs_of [full_batch ix s]) ->
  exists m0, apply_batches (reload_base m) [full_batch ix s] = Some m0 /\ rinv m0 (max_rev s + 1) /\ m_lay m0 = m_lay m /\ m_sd m0 = m_sd m /\
      m_queue m0 = [] /\ m_qsize m0 = 0 /\ m_iffy m0 = false /\
      (forall k, view m0 k = kfold (ncols m) k (evs_of [full_batch ix s]) None) /\
      (m_sd m = [] -> exact_fit (ncols m) (evs_of [full_batch ix s]) -> full m0) /\
      (tail_live [full_batch ix s] -> max_rev s + 1 <= m_dver m0).
Proof.
  intros ND P m t R FI. destruct (full_events_ok s ix ND) as (F1 & F2 & F3 & F4).
  assert (EE : evs_of [full_batch ix s] = flat_map (full_event s) ix) by apply app_nil_r. rewrite EE in *.
  pose proof (rinv_reload _ _ R) as BR.
  destruct (fin_loop_fresh (ba_schema (full_batch ix s)) (flat_map (full_event s) ix) (reload_base m) [] 0 0 BR F2 F1) as
    (s1 & E & Q1 & Q2 & Q3 & Q4 & Q5 & Q6 & Q7 & Q8).
  { apply Forall_forall. intros; reflexivity. } { exact FI. }
  cbn [apply_batches]. unfold finish. change (ba_evs (full_batch ix s)) with (flat_map (full_event s) ix). rewrite E. cbn [fold_left].
  rewrite (max_full s ix P). eexists. split; [reflexivity|].
  split.
  { pose proof (top_max (flat_map (full_event s) ix) 0 0 ltac:(lia)) as TT. rewrite (max_full s ix P) in TT. apply (rinv_mono _ _ _ Q1) in TT.
    destruct TT as [[? ? ?] ? ? ? ? ?]. constructor; cbn [m_lay m_sd m_idx m_objs set_dver]; auto. constructor; auto. }
  cbn [m_lay m_sd m_dver m_queue m_qsize m_iffy set_dver]. rewrite Q2, Q3, Q4, Q5, Q6. do 5 (split; [reflexivity|]).
  split; [|split].
  - intros k. change (view (set_dver (max_rev s + 1) s1) k) with (view s1 k). rewrite Q7. reflexivity.
  - intros _ X i o H. cbn [m_objs m_lay set_dver] in *. refine (Q8 _ X i o H). intros j y D. destruct j; discriminate D.
  - intros _. apply N.le_refl.
Qed.
Definition past_of s ix (ND : NoDup (akeys ix)) (P : Permutation ix (m_idx s)) : past.
Proof.
  refine (mk_past [full_batch ix s] (max_rev s + 1) (past_ok s ix ND P) _).
  intros E. rewrite <- (max_full s ix P). cbn [evs_of map concat ba_evs full_batch] in E. rewrite app_nil_r in E. rewrite E. cbn. lia.
Defined.

Lemma skipn_len {A} (l : list A) : skipn (length l) l = [].
Proof. apply skipn_all. Qed.

(** ** The first restart *)
Section First.
Variable farith : aop -> N -> N -> N.
Variable order : fieldmap -> fieldmap.
Variables (s : mst) (t : N) (ix : list (pkey * nat)).
Hypothesis R : rinv s t.
Hypothesis P : Permutation ix (m_idx s).

Lemma ix_nd : NoDup (akeys ix).
Proof. apply (Permutation_NoDup (l := akeys (m_idx s))); [apply Permutation_map, Permutation_sym, P | apply (gi_nd _ (ri_g _ _ R))]. Qed.
Definition the_past : past := past_of s ix ix_nd P.

Lemma first_restart : exists s0, up_step farith order (up_model s ix) BRestart = ((0%nat, s0), BoDone) /\
  b_file s0 = [full_batch ix s] /\ b_fl s0 = None /\ b_tasks s0 = [] /\
  m_lay (b_m s0) = m_lay s /\ m_sd (b_m s0) = [] /\ m_queue (b_m s0) = [] /\ m_dver (b_m s0) = max_rev s + 1 /\
  m_iffy (b_m s0) = false /\ full (b_m s0) /\ (forall k, view (b_m s0) k = view s k) /\
  @binv the_past s0 /\ lastok s0.
Proof.
  destruct (full_restart s t ix [] R P (Forall_nil _)) as (s2 & E & R2 & L & SD & DV & Q & QS & IF & FU & V); [intros f []|].
  exists (mk_bst s2 [full_batch ix s] [] None false false).
  unfold up_model, up_step. cbn [b_fl b_bad b_m b_file b_tasks]. unfold sver. rewrite skipn_len, E.
  do 10 (split; [solve [auto]|]). split; [exact V|]. destruct (full_events_ok s ix ix_nd) as (F1 & F2 & F3 & F4).
  assert (EE : evs_of [full_batch ix s] = flat_map (full_event s) ix) by apply app_nil_r.
  assert (VV : forall k, kfold (length (col_names (m_lay s))) k (flat_map (full_event s) ix) None = view s k).
  { intros k. rewrite F4. unfold view. rewrite (aget_perm_k k ix (m_idx s) ix_nd P). reflexivity. }
  split.
  - constructor; unfold written, fresh, later, flying, claimed, ncols, pend; cbn [b_m b_file b_tasks b_fl b_bad].
    + rewrite DV. exact R2.
    + exact IF. + reflexivity.
    + rewrite Q. constructor.
    + rewrite Q. cbn. exact Logic.I.
    + rewrite Q, DV. cbn. lia.
    + rewrite L, EE, app_nil_r. eapply Forall_impl; [|exact F3]. intros e X Y. rewrite (X Y). apply le_n.
    + intros k. rewrite Q, L, EE. cbn [flat_map]. rewrite !app_nil_r, VV, V. reflexivity.
    + intros _. split; [exact FU|]. rewrite L, EE, app_nil_r. exact F3.
    + rewrite Q, QS. reflexivity.
    + exists []. rewrite app_nil_r. reflexivity.
  - split; cbn [b_m b_fl b_file]; rewrite Q; [intros q0 d0 o X; destruct q0; discriminate X|]. intros _. unfold tail_live.
    rewrite EE. destruct (flat_map (full_event s) ix) as [|e es] eqn:EF; [left; reflexivity|right].
    exists [], (full_batch ix s). split; [reflexivity|]. unfold full_batch. cbn [ba_evs]. rewrite EF. discriminate.
Qed.
End First.

(** after the first restart the machine is the usual one *)
Lemma up_step_zero farith order s o : up_step farith order (0%nat, s) o = let '(s', r) := bstep farith order s o in ((0%nat, s'), r).
Proof.
  destruct o; try reflexivity. unfold up_step, bstep. destruct (b_fl s); [reflexivity|]. destruct (b_bad s); [reflexivity|].
  change (base_of (m_lay (b_m s)) (skipn 0 (m_sd (b_m s)))) with (reload_base (b_m s)).
  destruct (apply_batches (reload_base (b_m s)) (b_file s)); reflexivity.
Qed.

(** ** SELECT of full rows does not depend on the schema deltas *)
Lemma apply_sd_has ds : Forall is_add ds -> forall m, (forall f, In (SdAdd f) ds -> In f (akeys m)) -> fold_left apply_sd ds m = m.
Proof.
  induction 1 as [|d ds H F IH]; intros m HM; [reflexivity|]. cbn [fold_left].
  destruct d as [f|f]; [|destruct H].
  assert (E : apply_sd m (SdAdd f) = m).
  { cbn [apply_sd]. unfold rf_insert. destruct (aget bseq f m) eqn:G; [reflexivity|]. exfalso.
    apply (aget_none _ bseq_eq) in G. apply G, HM. left. reflexivity. }
  rewrite E. apply IH. intros g Hg. apply HM. right. exact Hg.
Qed.
Lemma resolve_full s t i o : rinv s t -> full s -> nth_error (m_objs s) i = Some o ->
  ro_fields (resolve (m_sd s) o) = ro_fields o.
Proof.
  intros R F E. unfold resolve. destruct (Nat.leb _ _); [reflexivity|]. cbn [ro_fields].
  apply apply_sd_has; [apply forall_skipn, (ri_add _ _ R)|]. intros f Hf. apply (F _ _ E).
  apply (ri_sdn _ _ R). rewrite <- (firstn_skipn (S (ro_sv o)) (m_sd s)). apply in_or_app. right. exact Hf.
Qed.

Lemma select_same farith order m m' w cols k t t' : rinv m t -> rinv m' t' -> full m -> full m' -> m_lay m' = m_lay m ->
  asked (m_lay m) w = Some k -> view m' k = view m k ->
  snd (rstep farith order m' (RSelect w cols)) = snd (rstep farith order m (RSelect w cols)).
Proof.
  intros R R' F F' L HW H.
  pose proof (view_rows m m' t t' k R R' F F' L H) as RE.
  pose proof (ri_g _ _ R) as G. pose proof (ri_g _ _ R') as G'.
  assert (UP : tuniq_is_unique (tsel_uniq (lo_ptag (m_lay m))) = true) by (destruct (gi_lay _ G) as (_ & _ & f & _ & _ & U); exact U).
  pose proof (resolve_where_asked (m_lay m) w UP) as RW. cbn [rstep]. unfold exec_select. rewrite L.
  destruct (resolve_where (m_lay m) w) as [x|]; [|congruence]. rewrite HW in RW. inversion RW; subst k.
  unfold rows_of in RE.
  destruct (aget pkey_eqb (lit_key x) (m_idx m')) as [i'|] eqn:E1.
  2: { destruct (aget pkey_eqb (lit_key x) (m_idx m)) as [i|] eqn:E2; [|reflexivity].
       destruct (gi_row _ G _ _ E2) as (o & E3 & _). rewrite E3 in RE. destruct RE. }
  destruct (gi_row _ G' _ _ E1) as (o' & E3 & K3). rewrite E3 in *.
  destruct (aget pkey_eqb (lit_key x) (m_idx m)) as [i|] eqn:E2; [|destruct RE].
  destruct (gi_row _ G _ _ E2) as (o & E4 & K4). rewrite E4 in *. cbn [orow_eq] in RE. cbv zeta.
  rewrite (resolve_full _ _ _ _ R F E4), (resolve_full _ _ _ _ R' F' E3), (read_cols_ext _ _ _ _ _ RE). destruct (read_cols _ _ _ _); reflexivity.
Qed.

(** ** Writing before the first restart *)
Section Write.
Variable farith : aop -> N -> N -> N.
Variable order : fieldmap -> fieldmap.

Lemma up_run_acc l : forall ks acc, fold_left (fun acc o => let '(k, r) := up_step farith order (fst acc) o in (k, snd acc ++ [r])) l (ks, acc) =
  (fst (up_run farith order ks l), acc ++ snd (up_run farith order ks l)).
Proof.
  induction l as [|o l IH]; intros ks acc; [cbn; rewrite app_nil_r; reflexivity|]. unfold up_run. cbn [fold_left fst snd].
  destruct (up_step farith order ks o) as [k r]. rewrite IH, (IH k ([] ++ [r])). cbn [fst snd app]. rewrite <- app_assoc. reflexivity.
Qed.
Lemma up_run_cons ks o l ks' r : up_step farith order ks o = (ks', r) ->
  up_run farith order ks (o :: l) = (fst (up_run farith order ks' l), r :: snd (up_run farith order ks' l)).
Proof. intros E. unfold up_run at 1. cbn [fold_left fst snd]. rewrite E. apply up_run_acc. Qed.

(** the flush of the only queued change *)
Definition flush_one_ops : list bop := [BTake; BBegin 0; BStep WoOk; BEnd WoOk].
Lemma flush_single k s d m2 e : b_fl s = None -> b_tasks s = [] -> b_bad s = false -> m_iffy (b_m s) = false ->
  m_queue (b_m s) = [d] -> m_qsize (b_m s) = 1 ->
  flush_one (set_queue [] 0 (b_m s)) d = (m2, SrEv e) ->
  up_run farith order (k, s) flush_one_ops =
    ((k, mk_bst m2 (b_file s ++ [mk_batch 1 (tsel_uniq (lo_ptag (m_lay (b_m s)))) (N.of_nat (sver (b_m s)))
        (N.of_nat (length (lo_fields (m_lay (b_m s)))) - 1) [e]]) [] None (b_torn s) false), [BoDone; BoDone; BoDone; BoDone]).
Proof.
  intros F T B I Q S E. destruct s as [m file ts fl torn bad]. cbn [b_fl b_tasks b_bad b_m b_file b_torn] in *. subst fl ts bad.
  set (m1 := set_queue [d] 0 m).
  set (f0 := mk_fl 1 0 (tsel_uniq (lo_ptag (m_lay m))) (N.of_nat (sver m)) (N.of_nat (length (lo_fields (m_lay m))) - 1) []).
  assert (E1 : up_step farith order (k, mk_bst m file [] None torn false) BTake = ((k, mk_bst m1 file [1] None torn false), BoDone)).
  { unfold up_step, bstep. cbn [b_m b_file b_tasks b_fl b_torn b_bad app]. rewrite S, Q. reflexivity. }
  assert (E2 : up_step farith order (k, mk_bst m1 file [1] None torn false) (BBegin 0) = ((k, mk_bst m1 file [] (Some f0) torn false), BoDone)).
  { unfold up_step, bstep. cbn [b_m b_file b_tasks b_fl b_torn b_bad nth_error]. change (m_iffy m1) with (m_iffy m). rewrite I. reflexivity. }
  assert (E3 : up_step farith order (k, mk_bst m1 file [] (Some f0) torn false) (BStep WoOk) =
    ((k, mk_bst m2 file [] (Some (mk_fl 1 1 (fl_tag f0) (fl_schema f0) (fl_cols f0) [e])) torn false), BoDone)).
  { unfold up_step, bstep. cbn [b_m b_file b_tasks b_fl b_torn b_bad]. change (fl_want f0 <=? fl_i f0) with false.
    change (m_queue m1) with [d]. cbv iota zeta. change (set_queue [] (m_qsize m1) m1) with (set_queue [] 0 m). rewrite E. reflexivity. }
  unfold flush_one_ops. rewrite (up_run_cons _ _ _ _ _ E1), (up_run_cons _ _ _ _ _ E2), (up_run_cons _ _ _ _ _ E3). reflexivity.
Qed.

Lemma asked_not_null lay w k : asked lay w = Some k -> k <> PkNull.
Proof.
  unfold asked. destruct (aget bseq (lo_pk lay) w) as [[[] x]|]; try discriminate.
  destruct x, (tsel_uniq (lo_ptag lay)); try discriminate; intros H; injection H as <-; discriminate.
Qed.

(** what a restart reads the file as *)
Definition reads_as (k : nat) (s : bst) (m0 : mst) : Prop :=
  apply_batches (base_of (m_lay (b_m s)) (skipn k (m_sd (b_m s)))) (b_file s) = Some m0.

Record idle (s : bst) : Prop := {
  id_fl : b_fl s = None; id_ts : b_tasks s = []; id_bad : b_bad s = false; id_iffy : m_iffy (b_m s) = false;
  id_q : m_queue (b_m s) = []; id_qs : m_qsize (b_m s) = 0
}.

(** An accepted UPDATE whose number is not larger than the number the row has in the file: once it is
    written, the server cannot start. *)
Theorem update_is_lethal k s m0 t w asg r key cs s1 : idle s -> ginv (b_m s) -> reads_as k s m0 -> rinv m0 t ->
  asked (m_lay (b_m s)) w = Some key -> view m0 key = Some (r, cs) -> 0 < r -> m_dver (b_m s) <= r ->
  bstep farith order s (BStmt (RUpdate w asg)) = (s1, BoStmt RoOk) ->
  exists s2, up_run farith order (k, s1) flush_one_ops = ((k, s2), [BoDone; BoDone; BoDone; BoDone]) /\
    up_step farith order (k, s2) BRestart = ((k, s2), BoPanic).
Proof.
  intros [FL TS BD IF Q QS] G RA R HW HV R0 DV H. pose proof G as [GL GN GR].
  assert (UP : tuniq_is_unique (tsel_uniq (lo_ptag (m_lay (b_m s)))) = true) by (destruct GL as (_ & _ & f & _ & _ & U); exact U).
  pose proof (resolve_where_asked (m_lay (b_m s)) w UP) as RW. cbn [bstep rstep] in H. unfold exec_update in H. rewrite IF in H.
  destruct (resolve_where (m_lay (b_m s)) w) as [x|]; [|discriminate H]. rewrite HW in RW. injection RW as RW.
  rewrite <- RW in H. destruct (aget pkey_eqb key (m_idx (b_m s))) as [i|] eqn:GI; [|discriminate H].
  destruct (GR _ _ GI) as (o & EO & KO). rewrite EO in H. cbv zeta in H.
  destruct (update_row farith (lo_fields (m_lay (b_m s))) (ro_fields o) asg) as [f [| | | | |]]; try discriminate H.
  injection H as <-. set (o1 := mk_row (ro_key o) f (m_dver (b_m s)) (ro_sv o)).
  match goal with |- context [up_run farith order (k, ?a) _] => set (s1 := a) end.
  assert (NO : nth_error (m_objs (b_m s1)) i = Some o1) by (apply (nth_upd_same _ _ _ _ EO)).
  set (d := mk_dd (m_dver (b_m s)) i DkUpdate).
  assert (QU : m_queue (b_m s1) = [d]) by (change (m_queue (b_m s) ++ [d] = [d]); rewrite Q; reflexivity).
  assert (QZ : m_qsize (b_m s1) = 1) by (change (m_qsize (b_m s) + 1 = 1); rewrite QS; reflexivity).
  assert (FO : exists m2 cells, flush_one (set_queue [] 0 (b_m s1)) d = (m2, SrEv (mk_bev DkUpdate (m_dver (b_m s)) key cells)) /\
     m_lay m2 = m_lay (b_m s) /\ m_sd m2 = m_sd (b_m s)).
  { unfold flush_one. change (m_objs (set_queue [] 0 (b_m s1))) with (m_objs (b_m s1)). cbn [dd_row d]. rewrite NO.
    cbn [dd_kind dd_ver d ro_rev o1]. rewrite N.ltb_irrefl. cbv zeta. cbn [ro_key o1]. rewrite KO.
    pose proof (asked_not_null _ _ _ HW) as NN.
    destruct key; try (eexists; eexists; split; [reflexivity | split; reflexivity]). congruence. }
  destruct FO as (m2 & cells & FO & ML & MS).
  pose proof (flush_single k s1 d m2 _ FL TS BD IF QU QZ FO) as FS. eexists. split; [exact FS|].
  unfold up_step. cbn [b_fl b_bad b_m b_file]. rewrite apply_batches_app, ML, MS.
  change (b_file s1) with (b_file s). unfold reads_as in RA. rewrite RA. cbn [apply_batches]. unfold finish. cbn [ba_evs ba_schema fin_loop be_kind].
  unfold fin_put. cbn [be_key be_txn]. unfold view in HV.
  destruct (aget pkey_eqb key (m_idx m0)) as [j|]; [|discriminate HV]. destruct (nth_error (m_objs m0) j) as [oj|]; [|discriminate HV].
  injection HV as -> _. assert (Z1 : (r =? 0) = false) by (apply N.eqb_neq; lia). assert (Z2 : (r <? m_dver (b_m s)) = false) by (apply N.ltb_ge; exact DV).
  rewrite Z1, Z2. reflexivity.
Qed.

(** A DELETE whose number is smaller than the number the row has in the file: once it is written, a
    restart brings the row back. *)
Theorem delete_is_undone k s m0 t w r key cs s1 : idle s -> ginv (b_m s) -> reads_as k s m0 -> rinv m0 t ->
  asked (m_lay (b_m s)) w = Some key -> view m0 key = Some (r, cs) -> m_dver (b_m s) < r ->
  bstep farith order s (BStmt (RDelete w)) = (s1, BoStmt RoOk) ->
  view (b_m s1) key = None /\
  exists s2 s3, up_run farith order (k, s1) flush_one_ops = ((k, s2), [BoDone; BoDone; BoDone; BoDone]) /\
    up_step farith order (k, s2) BRestart = ((0%nat, s3), BoDone) /\
    forall key', view (b_m s3) key' = view m0 key'.
Proof.
  intros [FL TS BD IF Q QS] G RA R HW HV DV H. pose proof G as [GL GN GR].
  assert (UP : tuniq_is_unique (tsel_uniq (lo_ptag (m_lay (b_m s)))) = true) by (destruct GL as (_ & _ & f & _ & _ & U); exact U).
  pose proof (resolve_where_asked (m_lay (b_m s)) w UP) as RW. cbn [bstep rstep] in H. unfold exec_delete in H. rewrite IF in H. cbv zeta in H.
  destruct (resolve_where (m_lay (b_m s)) w) as [x|]; [|discriminate H]. rewrite HW in RW. injection RW as RW.
  rewrite <- RW in H. change (m_idx (bump_dver (b_m s))) with (m_idx (b_m s)) in H.
  destruct (aget pkey_eqb key (m_idx (b_m s))) as [i|] eqn:GI; [|discriminate H].
  destruct (GR _ _ GI) as (o & EO & KO). injection H as <-.
  match goal with |- context [up_run farith order (k, ?a) _] => set (s1 := a) end.
  split. { unfold view. change (m_idx (b_m s1)) with (adel pkey_eqb key (m_idx (b_m s))). rewrite aget_del_same. reflexivity. }
  set (d := mk_dd (m_dver (b_m s)) i DkDelete).
  assert (QU : m_queue (b_m s1) = [d]) by (change (m_queue (b_m s) ++ [d] = [d]); rewrite Q; reflexivity).
  assert (QZ : m_qsize (b_m s1) = 1) by (change (m_qsize (b_m s) + 1 = 1); rewrite QS; reflexivity).
  assert (FO : flush_one (set_queue [] 0 (b_m s1)) d = (set_queue [] 0 (b_m s1), SrEv (mk_bev DkDelete (m_dver (b_m s)) key []))).
  { unfold flush_one. change (m_objs (set_queue [] 0 (b_m s1))) with (m_objs (b_m s)). cbn [dd_row dd_kind dd_ver d]. rewrite EO, KO.
    pose proof (asked_not_null _ _ _ HW) as NN. destruct key; try reflexivity. congruence. }
  pose proof (flush_single k s1 d _ _ FL TS BD IF QU QZ FO) as FS.
  eexists. eexists. split; [exact FS|].
  unfold up_step. cbn [b_fl b_bad b_m b_file]. rewrite apply_batches_app.
  change (m_lay (set_queue [] 0 (b_m s1))) with (m_lay (b_m s)). change (m_sd (set_queue [] 0 (b_m s1))) with (m_sd (b_m s)).
  change (b_file s1) with (b_file s). unfold reads_as in RA. rewrite RA. cbn [apply_batches]. unfold finish.
  cbn [ba_evs ba_schema fin_loop be_kind fin_del be_key be_txn aget aput fold_left snd].
  split; [reflexivity|]. intros key'. cbn [b_m].
  change (view (fin_drop m0 (key, m_dver (b_m s))) key' = view m0 key').
  rewrite fin_drop_view by apply R. cbn [fst snd]. destruct (pkey_eqb key key') eqn:EK; [|reflexivity].
  apply pkey_eqb_eq in EK. subst key'. rewrite HV. assert (Z : (m_dver (b_m s) <? r) = true) by (apply N.ltb_lt; exact DV). rewrite Z. reflexivity.
Qed.
End Write.
