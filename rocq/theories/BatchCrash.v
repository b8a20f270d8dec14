(** What the file of a model holds of one key while changes wait in the queue: the key's row as it was at
    one of the moments since all its changes were written. Used for C114. *)
From Coq Require Import List Arith NArith Lia Bool Permutation Sorted.
From Verif Require Import Bytes AMap DataModel CodecModel CodecProofs DictModel TypeModel GnsCodecModel GnsModel GnsProofs
  RowModel RowSpec RowProofs RowTable RowUpd RowAlter RowLemmas BatchModel BatchProofs BatchTable.
Import ListNotations.
Local Open Scope N_scope.

(** a statement changes nothing that shows, or adds a row, or removes one, or changes one; each of the
    last three leaves one change at the end of the queue *)
Inductive shape (m m' : mst) : Prop :=
| sh_soft : soft m m' -> shape m m'
| sh_ins o pk : ro_key o = pk -> ro_rev o = m_dver m -> m_lay m' = m_lay m -> m_objs m' = m_objs m ++ [o] -> aget pkey_eqb pk (m_idx m) = None ->
    m_idx m' = aput pkey_eqb pk (length (m_objs m)) (m_idx m) ->
    m_queue m' = m_queue m ++ [mk_dd (m_dver m) (length (m_objs m)) DkInsert] -> shape m m'
| sh_del o i pk : nth_error (m_objs m) i = Some o -> ro_key o = pk -> m_lay m' = m_lay m -> m_objs m' = m_objs m -> aget pkey_eqb pk (m_idx m) = Some i ->
    m_idx m' = adel pkey_eqb pk (m_idx m) -> m_queue m' = m_queue m ++ [mk_dd (m_dver m) i DkDelete] -> shape m m'
| sh_upd o o' i pk : nth_error (m_objs m) i = Some o -> ro_key o = pk -> ro_key o' = pk -> ro_rev o' = m_dver m -> m_lay m' = m_lay m ->
    m_objs m' = upd_nth i o' (m_objs m) -> aget pkey_eqb pk (m_idx m) = Some i -> m_idx m' = m_idx m ->
    m_queue m' = m_queue m ++ [mk_dd (m_dver m) i DkUpdate] -> shape m m'.

Section Crash.
Context {PA : past}.
Variable farith : aop -> N -> N -> N.
Variable order : fieldmap -> fieldmap.
Hypothesis order_perm : forall l, Permutation (order l) l.

Lemma rstep_shape s q m' r : binv s -> rstep farith order (b_m s) q = (m', r) -> calm s (BStmt q) (BoStmt r) -> r <> RoUb ->
  match q with RAlter _ _ => False | _ => True end -> shape (b_m s) m'.
Proof.
  intros B H C NU NA. pose proof B as [R IF BD Q IN BN FI V FU CN PR]. pose proof R as [[GL GN GR] RN RA RS RC RR].
  destruct q as [d|w asg|w|w cols|cols lim|ak ok]; [| | | | |destruct NA]; cbn [calm] in C.
  - cbn [rstep] in H. unfold exec_insert in H. rewrite IF in H.
    destruct (prepare_insert (m_lay (b_m s)) d) as [[pk row]| |] eqn:EP; [|inversion H; subst; apply sh_soft, soft_refl|inversion H; subst; apply sh_soft, soft_refl].
    cbn [bump_dver set_dver m_idx m_objs sver m_sd] in H.
    destruct (aget pkey_eqb pk (m_idx (b_m s))) as [i0|] eqn:G0; [inversion H; subst; apply sh_soft, soft_bump|].
    cbv zeta in H. inversion H; subst m' r.
    apply (sh_ins _ _ (mk_row pk row (m_dver (b_m s)) (length (m_sd (b_m s)))) pk); try exact G0; reflexivity.
  - pose proof (update_cases farith order (b_m s) w asg (rinv_ginv _ _ R) IF) as UC.
    destruct (asked (m_lay (b_m s)) w) as [pk|]; [|rewrite UC in H; inversion H; subst; apply sh_soft, soft_refl].
    set (m := b_m s) in *. destruct (aget pkey_eqb pk (m_idx m)) as [i|] eqn:G0; [|rewrite UC in H; inversion H; subst; apply sh_soft, soft_refl].
    destruct UC as (o & EO & KO & _ & UC).
    destruct (update_row farith (lo_fields (m_lay m)) (ro_fields o) asg) as [fs r0] eqn:EU.
    assert (BAD : r0 <> RoOk -> rstep farith order m (RUpdate w asg) = (set_objs (upd_nth i (with_fields fs o) (m_objs m)) (bump_dver m), r0) -> shape m m').
    { intros NO E. rewrite E in H. inversion H; subst r m'. destruct C as [C|(NP & ND & NAP)]; [congruence|].
      assert (fs = ro_fields o).
      { destruct r0; try congruence; try (eapply update_error_same; eauto; fail).
        - exfalso. revert EU. unfold update_row. destruct (upd_loop _ _ _ _ _ _); discriminate.
        - exfalso. revert EU. unfold update_row. destruct (upd_loop _ _ _ _ _ _); discriminate. }
      subst fs. assert (W : with_fields (ro_fields o) o = o) by (destruct o; reflexivity). rewrite W, (upd_nth_id _ _ _ EO).
      apply sh_soft. assert (set_objs (m_objs m) (bump_dver m) = bump_dver m) as -> by reflexivity. apply soft_bump. }
    destruct r0; try (apply BAD; [discriminate|exact UC]). clear BAD. rewrite UC in H. inversion H; subst m' r.
    apply (sh_upd _ _ o (mk_row (ro_key o) fs (m_dver m) (ro_sv o)) i pk); try assumption; reflexivity.
  - cbn [rstep] in H. unfold exec_delete in H. rewrite IF in H. cbv zeta in H.
    destruct (resolve_where (m_lay (b_m s)) w) as [x|]; [|inversion H; subst; apply sh_soft, soft_bump].
    cbn [bump_dver set_dver m_idx] in H. destruct (aget pkey_eqb (lit_key x) (m_idx (b_m s))) as [i|] eqn:G0; [|inversion H; subst; apply sh_soft, soft_bump].
    inversion H; subst m' r. destruct (GR _ _ G0) as (o & EO & KO).
    apply (sh_del _ _ o i _ EO KO); try exact G0; reflexivity.
  - cbn [rstep] in H. unfold exec_select in H. apply sh_soft.
    destruct (resolve_where (m_lay (b_m s)) w) as [x|]; [|inversion H; subst; apply soft_refl].
    destruct (aget pkey_eqb (lit_key x) (m_idx (b_m s))) as [i|]; [|inversion H; subst; apply soft_refl].
    destruct (nth_error (m_objs (b_m s)) i) as [o|] eqn:EO; [|inversion H; subst; apply soft_refl]. cbv zeta in H.
    destruct (read_cols _ _ _ _); inversion H; subst; eapply soft_resolve; eauto.
  - cbn [rstep] in H. unfold exec_select_all in H. apply sh_soft.
    destruct (match cols with None => false | Some l => _ end); [inversion H; subst; apply soft_refl|].
    destruct (scan_rows _ _ _ _ _) as [objs rs] eqn:ES. inversion H; subst.
    eapply (soft_scan _ _ _ _ (b_m s)) in R. rewrite ES in R. exact R.
Qed.

Variable k : pkey.

(** the key's row when the written changes and the first ones of the queue are applied *)
Definition upto (s : bst) (q : list ddelta) : option (N * list cell) :=
  kfold (ncols (b_m s)) k (written s ++ flat_map (pend1 (b_m s)) q) None.
Definition among (P : option (N * list cell) -> Prop) (s : bst) : Prop :=
  forall q1 q2, m_queue (b_m s) = q1 ++ q2 -> P (upto s q1).
(** from the first change of the live row on, the queue holds no change of another row with this key and
    no removal of it *)
Definition ordered (m : mst) : Prop :=
  forall i, aget pkey_eqb k (m_idx m) = Some i -> forall q1 d q2, m_queue m = q1 ++ d :: q2 -> dd_row d = i ->
  Forall (fun d' => forall o, nth_error (m_objs m) (dd_row d') = Some o -> ro_key o = k -> dd_row d' = i /\ dd_kind d' <> DkDelete) (d :: q2).

Lemma snoc_split {A} (l : list A) x q1 q2 : l ++ [x] = q1 ++ q2 -> (q1 = l ++ [x] /\ q2 = []) \/ exists q3, q2 = q3 ++ [x] /\ l = q1 ++ q3.
Proof.
  intros E. destruct q2 as [|y q2] using rev_ind; [left; rewrite app_nil_r in E; auto|]. right. clear IHq2.
  rewrite app_assoc in E. apply app_inj_tail in E as [-> ->]. eauto.
Qed.
Lemma snoc_at {A} (l : list A) x q1 d q2 : l ++ [x] = q1 ++ d :: q2 -> (d = x /\ q2 = []) \/ exists q3, q2 = q3 ++ [x] /\ l = q1 ++ d :: q3.
Proof.
  intros E. change (d :: q2) with ([d] ++ q2) in E. rewrite app_assoc in E. apply snoc_split in E as [[E ->]|(q3 & -> & ->)].
  - apply app_inj_tail in E as [_ ->]. auto.
  - right. exists q3. rewrite <- app_assoc. auto.
Qed.
Lemma kfold_drop n es es' v : filter (fun e => pkey_eqb (be_key e) k) es = filter (fun e => pkey_eqb (be_key e) k) es' -> kfold n k es v = kfold n k es' v.
Proof. intros E. rewrite kfold_filter, E, <- kfold_filter. reflexivity. Qed.

Lemma soft_ordered m m' : soft m m' -> ordered m -> ordered m'.
Proof.
  intros S O i G q1 d q2 E D. rewrite (so_idx _ _ S) in G. rewrite (so_queue _ _ S) in E. specialize (O i G q1 d q2 E D).
  eapply Forall_impl; [|exact O]. intros d' X o' EO KO. destruct (soft_back _ _ _ _ S EO) as (o & EO2 & K2 & _). apply (X o EO2). congruence.
Qed.
Lemma soft_among P s m' : soft (b_m s) m' -> among P s -> among P (with_m m' s).
Proof.
  intros S A q1 q2 E. cbn [with_m b_m] in E. rewrite (so_queue _ _ S) in E. specialize (A _ _ E).
  unfold upto, ncols in *. cbn [with_m b_m]. rewrite (so_lay _ _ S).
  rewrite (flat_map_ext _ _ (fun d => soft_pend1 _ _ d S)). exact A.
Qed.

Lemma upto_all s : binv s -> upto s (m_queue (b_m s)) = view (b_m s) k.
Proof. intros B. apply (bi_view _ B k). Qed.

Lemma shape_keeps (P : option (N * list cell) -> Prop) s m' : binv s -> binv (with_m m' s) -> shape (b_m s) m' -> P (view m' k) -> among P s -> ordered (b_m s) ->
  among P (with_m m' s) /\ ordered m'.
Proof.
  intros B B' SH PV A O. pose proof (bi_r _ B) as R. pose proof (gi_row _ (ri_g _ _ R)) as GR. pose proof (bi_q _ B) as Q.
  set (m := b_m s) in *.
  assert (ALL : P (upto (with_m m' s) (m_queue m'))) by (pose proof (upto_all _ B') as U; cbn [with_m b_m] in U; rewrite U; exact PV).
  destruct SH as [SH|o pk KO RO L EO G0 EI EQ|o i pk EO KO L EB G0 EI EQ|o o' i pk EO KO KO' RO L EB G0 EI EQ].
  - split; [apply soft_among; assumption|eapply soft_ordered; eassumption].
  - assert (LT : forall d, In d (m_queue m) -> exists x, nth_error (m_objs m) (dd_row d) = Some x /\ nth_error (m_objs m') (dd_row d) = Some x).
    { intros d D. rewrite Forall_forall in Q. destruct (Q d D) as (x & EX & _). exists x. split; [exact EX|]. rewrite EO, nth_error_app1; [exact EX|]. apply nth_error_Some. congruence. }
    split.
    + intros q1 q2 E. cbn [with_m b_m] in E. pose proof E as E2. rewrite EQ in E2. apply snoc_split in E2 as [[X _]|(q3 & -> & E3)]; [rewrite X, <- EQ; exact ALL|].
      specialize (A q1 q3 E3). unfold upto, ncols, written, flying in *. cbn [with_m b_m b_file b_fl]. rewrite L. fold m in A.
      rewrite (flat_map_ext_in (pend1 m') (pend1 m)); [exact A|]. intros d D. unfold pend1. destruct (LT d) as (x & X1 & X2); [rewrite E3; apply in_or_app; auto|]. rewrite X1, X2, L. reflexivity.
    + intros j G q1 d q2 E D. rewrite EQ in E. rewrite EI in G. destruct (pkey_eqb k pk) eqn:KP.
      * apply pkey_eqb_eq in KP. subst pk. rewrite KP in G. rewrite (aget_put_same _ pkey_eqb_eq) in G. injection G as <-.
        apply snoc_at in E as [[-> ->]|(q3 & -> & E3)].
        -- constructor; [|constructor]. intros x _ _. cbn. split; [reflexivity|discriminate].
        -- exfalso. destruct (LT d) as (x & X1 & _); [rewrite E3; apply in_or_app; right; left; reflexivity|]. rewrite D in X1.
           assert (length (m_objs m) < length (m_objs m))%nat by (apply nth_error_Some; congruence). lia.
      * apply pkey_neq in KP. rewrite (aget_put_other _ pkey_eqb_eq) in G by exact KP. destruct (GR _ _ G) as (y & Y1 & Y2).
        assert (JL : (j < length (m_objs m))%nat) by (apply nth_error_Some; congruence).
        apply snoc_at in E as [[-> ->]|(q3 & -> & E3)]; [cbn in D; lia|].
        pose proof (O j G q1 d q3 E3 D) as F. change (d :: q3 ++ [?z]) with ((d :: q3) ++ [z]). apply Forall_app. split.
        -- rewrite Forall_forall in *. intros d' D' x EX KX. destruct (LT d') as (x' & X1 & X2); [rewrite E3; apply in_or_app; right; exact D'|].
           apply (F d' D' x'); [exact X1|congruence].
        -- constructor; [|constructor]. cbn [dd_row dd_kind]. intros x EX KX. rewrite EO, nth_error_app2, Nat.sub_diag in EX by lia. cbn in EX. injection EX as <-. congruence.
  - split.
    + intros q1 q2 E. cbn [with_m b_m] in E. pose proof E as E2. rewrite EQ in E2. apply snoc_split in E2 as [[X _]|(q3 & -> & E3)]; [rewrite X, <- EQ; exact ALL|].
      specialize (A q1 q3 E3). unfold upto, ncols, written, flying in *. cbn [with_m b_m b_file b_fl]. rewrite L. fold m in A.
      rewrite (flat_map_ext (pend1 m') (pend1 m)); [exact A|]. intros d. unfold pend1. rewrite EB, L. reflexivity.
    + intros j G q1 d q2 E D. rewrite EQ in E. rewrite EI in G. destruct (pkey_eqb k pk) eqn:KP.
      * apply pkey_eqb_eq in KP. subst pk. rewrite KP, aget_del_same in G. discriminate G.
      * apply pkey_neq in KP. rewrite (aget_del_other _ pkey_eqb_eq) in G by exact KP. destruct (GR _ _ G) as (y & Y1 & Y2).
        apply snoc_at in E as [[-> ->]|(q3 & -> & E3)]; [cbn in D; congruence|].
        pose proof (O j G q1 d q3 E3 D) as F. rewrite EB. change (d :: q3 ++ [?z]) with ((d :: q3) ++ [z]). apply Forall_app. split; [exact F|].
        constructor; [|constructor]. cbn [dd_row]. intros x EX KX. congruence.
  - assert (OTH : forall j, j <> i -> nth_error (m_objs m') j = nth_error (m_objs m) j) by (intros j NE; rewrite EB; apply nth_upd_other; auto).
    assert (SAME : nth_error (m_objs m') i = Some o') by (rewrite EB; apply (nth_upd_same _ _ _ _ EO)).
    assert (KEY : forall j x, nth_error (m_objs m') j = Some x -> exists y, nth_error (m_objs m) j = Some y /\ ro_key y = ro_key x).
    { intros j x EX. destruct (Nat.eq_dec j i) as [->|NE]; [exists o; split; [exact EO|congruence]|]. rewrite OTH in EX by exact NE. eauto. }
    split.
    + intros q1 q2 E. cbn [with_m b_m] in E. pose proof E as E2. rewrite EQ in E2. apply snoc_split in E2 as [[X _]|(q3 & -> & E3)]; [rewrite X, <- EQ; exact ALL|].
      clear E. assert (PD : forall d, dd_row d <> i -> pend1 m' d = pend1 m d) by (intros d NE; unfold pend1; rewrite OTH, L by exact NE; reflexivity).
      assert (U : forall qa, upto (with_m m' s) qa = kfold (ncols m) k (written s ++ flat_map (pend1 m') qa) None).
      { intros qa. unfold upto, ncols, written, flying. cbn [with_m b_m b_file b_fl]. rewrite L. reflexivity. }
      destruct (pkey_eqb k pk) eqn:KP.
      * (* the changed row: the changes of it in the queue are stale now *)
        apply pkey_eqb_eq in KP. subst pk.
        assert (SP : (Forall (fun d => dd_row d <> i) q1) \/ exists a d b, q1 = a ++ d :: b /\ dd_row d = i /\ Forall (fun d => dd_row d <> i) a).
        { clear. induction q1 as [|d q1 IH]; [left; constructor|]. destruct (Nat.eq_dec (dd_row d) i) as [E|NE].
          - right. exists [], d, q1. auto.
          - destruct IH as [IH|(a & d' & b & -> & E & F)]; [left; constructor; auto|right; exists (d :: a), d', b; split; [reflexivity|]; auto]. }
        destruct SP as [F|(a & d & b & -> & E & F)].
        -- rewrite U, (flat_map_ext_in (pend1 m') (pend1 m)); [exact (A q1 q3 E3)|]. intros d D. apply PD. rewrite Forall_forall in F. auto.
        -- assert (E4 : m_queue m = a ++ d :: (b ++ q3)) by (rewrite E3, <- app_assoc; reflexivity).
           assert (G0' : aget pkey_eqb k (m_idx m) = Some i) by (rewrite KP; exact G0).
           pose proof (O i G0' a d (b ++ q3) E4 E) as OR.
           assert (TL : kfold (ncols m) k (written s ++ flat_map (pend1 m') (a ++ d :: b)) None = kfold (ncols m) k (written s ++ flat_map (pend1 m) a) None).
           { rewrite flat_map_app, (flat_map_ext_in (pend1 m') (pend1 m) a) by (intros x D; apply PD; rewrite Forall_forall in F; auto).
             rewrite app_assoc, kfold_app. apply kfold_other. apply Forall_forall. intros e He EK. apply in_flat_map in He as (x & D1 & D2).
             destruct (pend1_key _ _ _ D2) as (ox & O1 & O2). destruct (KEY _ _ O1) as (oy & Y1 & Y2). rewrite Forall_forall in OR.
             assert (IN : In x (d :: b ++ q3)) by (destruct D1 as [<-|D1]; [left; reflexivity|right; apply in_or_app; auto]).
             destruct (OR x IN oy Y1 ltac:(congruence)) as [ER NK]. rewrite ER in *. rewrite SAME in O1. injection O1 as <-.
             assert (QX : In x (m_queue m)) by (rewrite E4; apply in_or_app; right; exact IN).
             rewrite Forall_forall in Q. destruct (Q x QX) as (oz & Z1 & Z2). specialize (Z2 NK). rewrite ER in Z1. rewrite EO in Z1. injection Z1 as <-.
             pose proof (ri_rev _ _ R _ _ EO) as RV. fold m in RV.
             unfold pend1 in D2. rewrite ER, SAME, RO in D2. destruct (N.ltb_spec (dd_ver x) (m_dver m)) as [_|GE]; [|lia].
             destruct (dd_kind x); [destruct (NK eq_refl)|destruct D2|destruct D2]. }
           rewrite U, TL. apply (A a (d :: b ++ q3) E4).
      * apply pkey_neq in KP. rewrite U. erewrite kfold_drop; [exact (A q1 q3 E3)|]. fold m. rewrite !filter_app. f_equal.
        clear - KP PD EO KO SAME KO'. induction q1 as [|d q IH]; [reflexivity|]. cbn [flat_map]. rewrite !filter_app, IH. f_equal.
        destruct (Nat.eq_dec (dd_row d) i) as [E|NE]; [|rewrite PD by exact NE; reflexivity].
        assert (X : forall mm oo, nth_error (m_objs mm) (dd_row d) = Some oo -> ro_key oo = pk -> filter (fun e => pkey_eqb (be_key e) k) (pend1 mm d) = []).
        { intros mm oo E1 E2. assert (Y : Forall (fun e => be_key e <> k) (pend1 mm d)).
          { apply Forall_forall. intros x Hx. destruct (pend1_key _ _ _ Hx) as (y & Y1 & Y2). congruence. }
          induction Y as [|a l HA HL IHY]; [reflexivity|]. cbn [filter]. destruct (pkey_eqb (be_key a) k) eqn:EK; [apply pkey_eqb_eq in EK; contradiction|exact IHY]. }
        rewrite E in X. rewrite (X m' o'), (X m o); auto.
    + intros j G q1 d q2 E D. rewrite EQ in E. rewrite EI in G. destruct (GR _ _ G) as (y & Y1 & Y2).
      assert (NEW : forall x, nth_error (m_objs m') i = Some x -> ro_key x = k -> i = j).
      { intros x EX KX. rewrite SAME in EX. injection EX as <-. rewrite KO' in KX. rewrite <- KX in G. congruence. }
      apply snoc_at in E as [[-> ->]|(q3 & -> & E3)].
      * constructor; [|constructor]. cbn [dd_row dd_kind] in *. intros x EX KX. split; [exact D|discriminate].
      * pose proof (O j G q1 d q3 E3 D) as F. change (d :: q3 ++ [?z]) with ((d :: q3) ++ [z]). apply Forall_app. split.
        -- eapply Forall_impl; [|exact F]. intros d' X x EX KX. destruct (KEY _ _ EX) as (z & Z1 & Z2). apply (X z Z1). congruence.
        -- constructor; [|constructor]. cbn [dd_row dd_kind]. intros x EX KX. split; [eapply NEW; eassumption|discriminate].
Qed.

Lemma keeps_step (P : option (N * list cell) -> Prop) s o s' r : binv s -> lastok s -> bstep farith order s o = (s', r) -> calm s o r -> r <> BoUb -> r <> BoStmt RoUb ->
  match o with BStmt (RAlter _ _) => False | _ => True end -> P (view (b_m s') k) -> among P s -> ordered (b_m s) ->
  among P s' /\ ordered (b_m s').
Proof.
  intros B LK HS C N1 N2 NA PV A O. pose proof (binv_any farith order order_perm s o s' r B LK HS C N1 N2) as B'.
  assert (SAMEW : b_m s' = b_m s -> written s' = written s -> among P s' /\ ordered (b_m s')).
  { intros E W. rewrite E. split; [|exact O]. intros q1 q2 E2. rewrite E in E2. specialize (A q1 q2 E2). unfold upto in *. rewrite E, W. exact A. }
  destruct o as [q| |i|w|w| |]; cbn [bstep] in HS.
  - destruct (rstep farith order (b_m s) q) as [m' r0] eqn:E.
    assert (E2 : s' = with_m m' s /\ r = BoStmt r0) by (destruct q; try (inversion HS; subst; auto); destruct NA).
    destruct E2 as [-> ->]. cbn [with_m b_m]. apply shape_keeps; auto. eapply rstep_shape; eauto. congruence.
  - inversion HS; subst. split; [exact A|exact O].
  - destruct (b_fl s) as [f|] eqn:EF; [inversion HS; subst; auto|].
    destruct (nth_error (b_tasks s) i); [|inversion HS; subst; auto]. cbv zeta in HS.
    destruct (m_iffy (b_m s)); [inversion HS; subst|destruct (n =? 0); inversion HS; subst]; (apply SAMEW; [reflexivity|unfold written, flying; cbn [b_file b_fl fl_evs]; rewrite EF; reflexivity]).
  - cbn [calm] in C. subst w. destruct (b_fl s) as [f|] eqn:EF; [|inversion HS; subst; auto].
    destruct (fl_want f <=? fl_i f); [inversion HS; subst; auto|].
    destruct (m_queue (b_m s)) as [|d q] eqn:EQ; [inversion HS; subst; auto|]. cbv zeta in HS.
    destruct (flush_one (set_queue q (m_qsize (b_m s)) (b_m s)) d) as [m2 res] eqn:EO.
    pose proof (bi_q _ B) as Q. rewrite EQ in Q. inversion Q as [|? ? Q1 Q2]; subst.
    assert (NRU : res <> SrUb) by (intros ->; inversion HS; subst; congruence).
    destruct (flush_one_ok _ _ _ _ _ (bi_r _ B) EQ Q1 res EO NRU) as [S RES].
    assert (MAIN : forall evs, evs = fl_evs f ++ pend1 (b_m s) d -> b_m s' = m2 ->
       written s' = evs_of (b_file s) ++ evs -> among P s' /\ ordered (b_m s')).
    { intros evs EV EM EW. rewrite EM. split.
      - intros q1 q2 E. rewrite EM, (so_queue _ _ S) in E. cbn [set_queue m_queue] in E.
        specialize (A (d :: q1) q2). unfold upto, ncols in *. rewrite EM, (so_lay _ _ S), EW, EV.
        rewrite (flat_map_ext _ _ (fun x => soft_pend1 _ _ x S)). change (m_lay (set_queue q (m_qsize (b_m s)) (b_m s))) with (m_lay (b_m s)).
        rewrite (flat_map_ext (pend1 (set_queue q (m_qsize (b_m s)) (b_m s))) (pend1 (b_m s))) by (intros x; reflexivity).
        rewrite app_assoc, <- app_assoc. cbn [flat_map] in A. unfold written, flying in A. rewrite EF in A. apply A. rewrite EQ, E. reflexivity.
      - eapply soft_ordered; [exact S|]. intros j G q1 x q2 E D. cbn [set_queue m_queue m_idx m_objs] in *. apply (O j G (d :: q1) x q2); [rewrite EQ, E; reflexivity|exact D]. }
    destruct res as [|e|]; [| |congruence]; inversion HS; subst; cbn [b_m].
    + apply (MAIN (fl_evs f)); [rewrite RES, app_nil_r; reflexivity|reflexivity|reflexivity].
    + destruct RES as (E1 & _). apply (MAIN (fl_evs f ++ [e])); [rewrite E1; reflexivity|reflexivity|reflexivity].
  - cbn [calm] in C. subst w. destruct (b_fl s) as [f|] eqn:EF; [|inversion HS; subst; auto].
    destruct (fl_i f <? fl_want f); [inversion HS; subst; auto|]. inversion HS; subst. apply SAMEW; [reflexivity|].
    unfold written, flying, evs_of. cbn [b_file b_fl]. rewrite EF, map_app, concat_app. cbn [map concat ba_evs]. rewrite !app_nil_r. reflexivity.
  - destruct (b_fl s) eqn:EF; [inversion HS; subst; auto|]. destruct (b_torn s); inversion HS; subst; auto.
    assert (E : set_iffy false (b_m s) = b_m s) by (pose proof (bi_iffy _ B); destruct (b_m s); cbn in *; subst; reflexivity).
    apply SAMEW; [exact E|unfold written, flying; cbn [b_file b_fl]; rewrite EF; reflexivity].
  - destruct (b_fl s) as [f|] eqn:EF; [inversion HS; subst; auto|].
    destruct (restart_ok farith order s B EF) as (m & E & L & SD & Q & QS & IF & R & V & _). cbn [bstep] in E. rewrite EF in E. rewrite E in HS. inversion HS; subst s' r. cbn [b_m] in *.
    split.
    + intros q1 q2 E2. cbn [b_m] in E2. rewrite Q in E2. destruct q1; [|discriminate E2].
      pose proof (upto_all _ B') as U. cbn [b_m] in U. rewrite Q in U. rewrite U. exact PV.
    + intros j G q1 d q2 E2. rewrite Q in E2. destruct q1; discriminate E2.
Qed.

(** a moment of a history: the state after a part of it *)
Lemma crash_past s0 h s : binv s0 -> lastok s0 -> ~ queued s0 k -> calm_from farith order s0 h s ->
  Forall (fun e => match fst e with BStmt (RAlter _ _) => False | _ => True end) h ->
  exists h1 h2 sm, h = h1 ++ h2 /\ calm_from farith order s0 h1 sm /\ calm_from farith order sm h2 s /\
    kfold (ncols (b_m s)) k (written s) None = view (b_m sm) k.
Proof.
  intros B0 K0 NQ H NA.
  assert (X : among (fun v => exists h1 h2 sm, h = h1 ++ h2 /\ calm_from farith order s0 h1 sm /\ calm_from farith order sm h2 s /\ v = view (b_m sm) k) s /\ ordered (b_m s)).
  { induction H as [|h s o s' r H IH HS C N1 N2].
    - assert (NK : forall d o, In d (m_queue (b_m s0)) -> nth_error (m_objs (b_m s0)) (dd_row d) = Some o -> ro_key o <> k) by (intros d o D E K; apply NQ; exists d, o; auto).
      split.
      + intros q1 q2 E. exists [], [], s0. split; [reflexivity|]. split; [constructor|]. split; [constructor|].
        rewrite <- (unqueued_written s0 k B0 NQ). unfold upto. rewrite kfold_app. apply kfold_other. apply Forall_forall. intros e He EK.
        apply in_flat_map in He as (d & D1 & D2). destruct (pend1_key _ _ _ D2) as (o & O1 & O2). apply (NK d o); [rewrite E; apply in_or_app; auto|exact O1|congruence].
      + intros i G q1 d q2 E D. exfalso. destruct (gi_row _ (ri_g _ _ (bi_r _ B0)) _ _ G) as (o & EO & KO). rewrite <- D in EO.
        apply (NK d o); [rewrite E; apply in_or_app; right; left; reflexivity|exact EO|exact KO].
    - apply Forall_app in NA as [NA1 NA2]. inversion NA2 as [|? ? NA3 _]; subst. cbn [fst] in NA3.
      destruct (calm_from_inv farith order order_perm _ _ _ B0 K0 H) as [B K]. destruct (IH NA1) as [A O].
      apply (keeps_step _ s o s' r B K HS C N1 N2 NA3); [| |exact O].
      + exists (h ++ [(o, r)]), [], s'. split; [rewrite app_nil_r; reflexivity|]. split; [econstructor; eauto|]. split; [constructor|reflexivity].
      + intros q1 q2 E. destruct (A q1 q2 E) as (h1 & h2 & sm & -> & P1 & P2 & P3). exists h1, (h2 ++ [(o, r)]), sm.
        split; [rewrite app_assoc; reflexivity|]. split; [exact P1|]. split; [econstructor; eauto|exact P3]. }
  destruct X as [A _]. destruct (A [] (m_queue (b_m s)) eq_refl) as (h1 & h2 & sm & E & P1 & P2 & P3). exists h1, h2, sm.
  split; [exact E|]. split; [exact P1|]. split; [exact P2|]. rewrite <- P3. unfold upto. cbn [flat_map]. rewrite app_nil_r. reflexivity.
Qed.
End Crash.
