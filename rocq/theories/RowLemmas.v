(** Further lemmas for RowProps.v: single statements in reachable states. *)
From Coq Require Import List NArith ZArith Bool Lia Permutation.
From Verif Require Import Bytes AMap DataModel CodecModel CodecProofs TypeModel GnsCodecModel GnsModel GnsProofs RowModel RowSpec RowProofs RowTable RowUpd RowAlter.
Import ListNotations.
Local Open Scope N_scope.

(** * Values *)

Lemma fits_retag ls c : fits ls c -> typed ls (retag ls c) /\ strip (retag ls c) = strip c.
Proof.
  induction 1 as [b|b|b|q q' w HR HI|ls xs HX IH].
  - split; [constructor|reflexivity].
  - split; [constructor|reflexivity].
  - split; [constructor|reflexivity].
  - rewrite retag_cons_num, qsel_tsel_qsel. split; [constructor; auto|].
    cbn. f_equal. apply widest_class. exact HR.
  - cbn [retag strip]. split.
    + constructor. intros x Hx. apply in_map_iff in Hx as (y & <- & Hy). apply IH. exact Hy.
    + f_equal. rewrite map_map. apply map_ext_in. intros x Hx. apply IH. exact Hx.
Qed.

Lemma accepts_retag f c : accepts f c -> accepts_typed f (retag (f_layers f) c) /\ strip (retag (f_layers f) c) = strip c.
Proof.
  intros [[-> N]|F].
  - assert (E : retag (f_layers f) CNull = CNull) by (destruct (f_layers f) as [|[] ?]; reflexivity).
    rewrite E. split; [left; auto|reflexivity].
  - destruct (fits_retag _ _ F). split; [right|]; auto.
Qed.

(** the row an INSERT stores *)
Lemma ins_row_get lay d : conforming lay d -> forall c f, aget bseq c (lo_fields lay) = Some f -> c <> lo_pk lay ->
  exists v x, aget bseq c (ins_row lay d) = Some v /\ supplied lay d c = Some x /\ accepts_typed f v /\ strip v = strip x.
Proof.
  intros [CS CF] c f G NP. destruct (CF _ _ G) as (x & ES & A).
  rewrite ins_row_adel, (aget_del_other _ bseq_eq) by exact NP. rewrite aget_map_snd.
  assert (EA : aget bseq c (all_of lay d) = Some x) by (destruct d; exact ES).
  rewrite EA. cbn [fst snd]. unfold layers_of. rewrite G.
  destruct (accepts_retag _ _ A) as [T S]. eauto 8.
Qed.

Lemma ins_row_nodup lay d : lay_ok lay -> data_ok d -> conforming lay d -> NoDup (akeys (ins_row lay d)).
Proof.
  intros (ND & _) HD [CS _]. rewrite ins_row_adel. apply (nodup_del _ bseq_eq).
  unfold akeys. rewrite map_map. cbn [fst]. destruct d as [t|m]; cbn [all_of supplies_all data_ok] in *.
  - change (NoDup (akeys (combine (map fst (lo_fields lay)) t))). rewrite keys_combine; [exact ND|].
    rewrite map_length. exact CS.
  - apply HD.
Qed.

Lemma ins_key_not_null lay d f : lay_ok lay -> conforming lay d -> aget bseq (lo_pk lay) (lo_fields lay) = Some f ->
  f_null f = false -> ins_key lay d <> PkNull.
Proof.
  intros (_ & _ & f' & G & L & U) [_ CF] GF HN. unfold f_get in G. rewrite GF in G. inversion G; subst f'.
  destruct (CF _ _ GF) as (c & ES & [[-> X]|F]); [congruence|]. unfold ins_key. rewrite ES.
  rewrite L in F. eapply fits_class_unique; eauto.
Qed.

(** * Rows have each column once *)

Definition rows_nd (s : mst) : Prop := forall i o, nth_error (m_objs s) i = Some o -> NoDup (akeys (ro_fields o)).

Lemma apply_sd_nd d m : NoDup (akeys m) -> NoDup (akeys (apply_sd m d)).
Proof.
  intros ND. destruct d as [f|f]; cbn [apply_sd].
  - unfold rf_insert. destruct (aget bseq f m) eqn:E; cbn [fst]; [exact ND|].
    rewrite akeys_app. cbn [akeys map fst]. apply NoDup_app_one; [exact ND|]. apply (aget_none _ bseq_eq). exact E.
  - apply (nodup_del _ bseq_eq). exact ND.
Qed.
Lemma resolve_nd sd o : NoDup (akeys (ro_fields o)) -> NoDup (akeys (ro_fields (resolve sd o))).
Proof.
  intros ND. unfold resolve. destruct (Nat.leb _ _); [exact ND|]. cbn [ro_fields].
  generalize (skipn (S (ro_sv o)) sd). intros l. revert ND. generalize (ro_fields o).
  induction l as [|d l IH]; intros m ND; [exact ND|]. cbn [fold_left]. apply IH. apply apply_sd_nd. exact ND.
Qed.

Lemma rows_nd_upd s i o o' : rows_nd s -> nth_error (m_objs s) i = Some o -> NoDup (akeys (ro_fields o')) ->
  forall j x, nth_error (upd_nth i o' (m_objs s)) j = Some x -> NoDup (akeys (ro_fields x)).
Proof.
  intros R E ND j x N. destruct (Nat.eq_dec i j) as [<-|NE].
  - rewrite (nth_upd_same _ _ _ _ E) in N. inversion N; subst. exact ND.
  - rewrite nth_upd_other in N by exact NE. eapply R; eauto.
Qed.

Lemma scan_rows_nd lay sd cols : forall ids objs,
  (forall i o, nth_error objs i = Some o -> NoDup (akeys (ro_fields o))) ->
  forall i o, nth_error (fst (scan_rows lay sd cols ids objs)) i = Some o -> NoDup (akeys (ro_fields o)).
Proof.
  induction ids as [|j ids IH]; intros objs R; cbn [scan_rows]; [exact R|].
  destruct (nth_error objs j) as [oj|] eqn:E; [|exact R]. cbv zeta.
  assert (R1 : forall i o, nth_error (upd_nth j (resolve sd oj) objs) i = Some o -> NoDup (akeys (ro_fields o))).
  { intros i x N. destruct (Nat.eq_dec j i) as [<-|NE].
    - rewrite (nth_upd_same _ _ _ _ E) in N. inversion N; subst. apply resolve_nd. eapply R; eauto.
    - rewrite nth_upd_other in N by exact NE. eapply R; eauto. }
  destruct (read_cols_all _ _ _ _); [|exact R1].
  specialize (IH _ R1). destruct (scan_rows lay sd cols ids (upd_nth j (resolve sd oj) objs)). exact IH.
Qed.

Section Lemmas.
Variable farith : aop -> N -> N -> N.
Variable order : fieldmap -> fieldmap.
Hypothesis order_perm : forall l, Permutation (order l) l.

Lemma nd_step s q s' r : ginv s -> stmt_ok q -> rows_nd s -> rstep farith order s q = (s', r) -> r <> RoUb -> rows_nd s'.
Proof.
  intros [IL IN IR] HQ R H HU.
  destruct q as [d|w asg|w|w cols|cols limit|ak ok]; cbn [rstep stmt_ok] in *.
  - unfold exec_insert in H. destruct (m_iffy s); [inversion H; subst; exact R|].
    destruct (prepare_insert (m_lay s) d) as [[pk row]| |] eqn:EP; try (inversion H; subst; exact R).
    destruct (prepare_ok _ _ _ _ IL HQ EP) as (C & -> & ->).
    cbn [bump_dver set_dver m_idx m_objs sver m_sd] in H.
    destruct (aget pkey_eqb _ (m_idx s)) as [i0|] eqn:G0; inversion H; subst; [exact R|].
    intros i o N. cbn [enqueue set_queue set_idx set_objs bump_dver set_dver m_objs] in N.
    destruct (Nat.lt_ge_cases i (length (m_objs s))) as [L|L].
    + rewrite nth_error_app1 in N by exact L. eapply R; eauto.
    + rewrite nth_error_app2 in N by exact L. destruct (i - length (m_objs s))%nat as [|n]; [|destruct n; discriminate].
      inversion N; subst. cbn [ro_fields]. apply ins_row_nodup; auto.
  - unfold exec_update in H. destruct (m_iffy s); [inversion H; subst; exact R|].
    destruct (resolve_where (m_lay s) w) as [x|]; [|inversion H; subst; exact R].
    destruct (aget pkey_eqb (lit_key x) (m_idx s)) as [i0|] eqn:G0; [|inversion H; subst; exact R].
    destruct (IR _ _ G0) as (o0 & E0 & K0). rewrite E0 in H.
    pose proof (update_row_keys farith (lo_fields (m_lay s)) (ro_fields o0) asg) as UK.
    pose proof (R _ _ E0) as ND0.
    destruct (update_row farith (lo_fields (m_lay s)) (ro_fields o0) asg) as [m1 r1]. cbn [fst] in UK.
    assert (ND1 : NoDup (akeys m1)) by (rewrite UK; exact ND0).
    destruct r1; inversion H; subst; intros j y N; cbn [enqueue set_queue set_idx set_objs bump_dver set_dver m_objs] in N;
      revert N; eapply rows_nd_upd; eauto.
  - unfold exec_delete in H. destruct (m_iffy s); [inversion H; subst; exact R|].
    destruct (resolve_where (m_lay s) w) as [x|]; [|inversion H; subst; exact R].
    destruct (aget pkey_eqb (lit_key x) _); inversion H; subst; exact R.
  - unfold exec_select in H.
    destruct (resolve_where (m_lay s) w) as [x|]; [|inversion H; subst; exact R].
    destruct (aget pkey_eqb (lit_key x) (m_idx s)) as [i0|] eqn:G0; [|inversion H; subst; exact R].
    destruct (IR _ _ G0) as (o0 & E0 & K0). rewrite E0 in H. cbv zeta in H.
    assert (ES : s' = set_objs (upd_nth i0 (resolve (m_sd s) o0) (m_objs s)) s) by (destruct (read_cols _ _ _ _); congruence).
    subst s'. intros j y N. cbn [set_objs m_objs] in N. revert N. eapply rows_nd_upd; eauto. apply resolve_nd. eapply R; eauto.
  - unfold exec_select_all in H. destruct (match cols with None => false | Some l => _ end); [inversion H; subst; exact R|].
    pose proof (scan_rows_nd (m_lay s) (m_sd s) (match cols with None => map fst (lo_fields (m_lay s)) | Some l => l end)
      (firstn (N.to_nat (N.min limit (N.of_nat (length (m_idx s))))) (map snd (m_idx s))) (m_objs s) R) as K.
    destruct (scan_rows _ _ _ _ _) as [objs rr]. cbn [fst] in K. inversion H; subst. exact K.
  - destruct (alter_cases order order_perm _ _ _ _ _ IL H) as [[-> _]|(-> & _ & ES & _)]; [exact R|].
    rewrite ES. exact R.
Qed.

Lemma iffy_step s q : m_iffy (fst (rstep farith order s q)) = m_iffy s.
Proof.
  destruct q as [d|w asg|w|w cols|cols limit|ak ok]; cbn [rstep].
  - unfold exec_insert. destruct (m_iffy s) eqn:E; [exact E|].
    destruct (prepare_insert (m_lay s) d) as [[pk row]| |]; try exact E.
    destruct (aget pkey_eqb pk _); exact E.
  - unfold exec_update. destruct (m_iffy s) eqn:E; [exact E|].
    destruct (resolve_where (m_lay s) w) as [x|]; [|exact E].
    destruct (aget pkey_eqb (lit_key x) (m_idx s)) as [i0|]; [|exact E].
    destruct (nth_error (m_objs s) i0); [|exact E]. cbv zeta.
    destruct (update_row _ _ _ _) as [m1 []]; exact E.
  - unfold exec_delete. destruct (m_iffy s) eqn:E; [exact E|].
    destruct (resolve_where (m_lay s) w) as [x|]; [|exact E].
    destruct (aget pkey_eqb (lit_key x) _); exact E.
  - unfold exec_select. destruct (resolve_where (m_lay s) w) as [x|]; [|reflexivity].
    destruct (aget pkey_eqb (lit_key x) (m_idx s)) as [i0|]; [|reflexivity].
    destruct (nth_error (m_objs s) i0); [|reflexivity]. cbv zeta. destruct (read_cols _ _ _ _); reflexivity.
  - unfold exec_select_all. destruct (match cols with None => false | Some l => _ end); [reflexivity|].
    destruct (scan_rows _ _ _ _ _); reflexivity.
  - unfold exec_alter. destruct (fdeltas _ _ _) as [[e|[nl a]]|]; try reflexivity.
    destruct nl; [|reflexivity]. cbn [negb]. destruct a; try reflexivity; destruct ok; reflexivity.
Qed.

(** the states after a history of statements, from a new model *)
Record reach (s : mst) : Prop := {
  rc_inv : ginv s;
  rc_nd : rows_nd s;
  rc_iffy : m_iffy s = false
}.

Lemma reach_hist lay h s : lay_ok lay -> rhist farith order (mst_new lay) h s ->
  Forall (fun e => stmt_ok (fst e)) h -> reach s.
Proof.
  intros LO H. remember (mst_new lay) as s0. revert Heqs0.
  induction H as [s0|s0 h s1 q s2 r H IH HS HU]; intros E HF.
  - subst. constructor; [apply ginv_new; exact LO| |reflexivity]. intros i o N. destruct i; discriminate.
  - apply Forall_app in HF as [HF HQ]. inversion HQ as [|? ? HQ1 _]; subst. cbn [fst] in HQ1.
    destruct (IH eq_refl HF) as [I1 N1 F1].
    destruct (grow_step farith order order_perm s1 q s2 r I1 HQ1 HS HU) as (I2 & _).
    constructor; [exact I2| |].
    + apply (nd_step s1 q s2 r I1 HQ1 N1 HS HU).
    + pose proof (iffy_step s1 q) as X. rewrite HS in X. cbn [fst] in X. congruence.
Qed.

Lemma rows_of_some s k : ginv s -> (exists m, rows_of s k = Some m) <-> aget pkey_eqb k (m_idx s) <> None.
Proof.
  intros [_ _ IR]. unfold rows_of. destruct (aget pkey_eqb k (m_idx s)) as [i|] eqn:G.
  - destruct (IR _ _ G) as (o & E & _). rewrite E. split; [congruence|eauto].
  - split; [intros [m X]; discriminate|congruence].
Qed.
Lemma rows_of_none s k : ginv s -> rows_of s k = None <-> aget pkey_eqb k (m_idx s) = None.
Proof.
  intros I. pose proof (rows_of_some s k I) as X. destruct (rows_of s k) as [m|].
  - split; [discriminate|]. intros E. exfalso. apply (proj1 X); eauto.
  - split; [|reflexivity]. intros _. destruct (aget pkey_eqb k (m_idx s)); [|reflexivity].
    destruct (proj2 X) as [m E]; [congruence|discriminate].
Qed.

(** ** INSERT *)
Lemma insert_cases s d s' r : ginv s -> m_iffy s = false -> data_ok d -> rstep farith order s (RInsert d) = (s', r) ->
  (r = RoOk /\ conforming (m_lay s) d /\ rows_of s (ins_key (m_lay s) d) = None /\
   rows_of s' (ins_key (m_lay s) d) = Some (ins_row (m_lay s) d) /\
   (forall k, k <> ins_key (m_lay s) d -> rows_of s' k = rows_of s k) /\
   (exists i, aget pkey_eqb (ins_key (m_lay s) d) (m_idx s') = Some i /\
      nth_error (m_objs s') i = Some (mk_row (ins_key (m_lay s) d) (ins_row (m_lay s) d) (m_dver s) (length (m_sd s))))) \/
  (r = RoErr EValid /\ ~ conforming (m_lay s) d /\ s' = s) \/
  (r = RoErr EDup /\ conforming (m_lay s) d /\ rows_of s (ins_key (m_lay s) d) <> None /\ s' = bump_dver s).
Proof.
  intros I F HD H. pose proof I as [IL IN IR]. cbn [rstep] in H. unfold exec_insert in H. rewrite F in H.
  destruct (prepare_insert (m_lay s) d) as [[pk row]| |] eqn:EP.
  - destruct (prepare_ok _ _ _ _ IL HD EP) as (C & -> & ->). cbn [bump_dver set_dver m_idx m_objs sver m_sd] in H.
    destruct (aget pkey_eqb _ (m_idx s)) as [i0|] eqn:G0; inversion H; subst; clear H.
    + right. right. split; [reflexivity|]. split; [exact C|]. split; [|reflexivity].
      rewrite rows_of_none by exact I. congruence.
    + left. split; [reflexivity|]. split; [exact C|]. split; [apply rows_of_none; auto|].
      unfold rows_of. cbn [enqueue set_queue set_idx set_objs bump_dver set_dver m_objs m_idx].
      rewrite (aget_put_same _ pkey_eqb_eq), nth_error_app2, Nat.sub_diag by lia. cbn [nth_error ro_fields].
      split; [reflexivity|]. split.
      * intros k NK. rewrite (aget_put_other _ pkey_eqb_eq) by exact NK.
        destruct (aget pkey_eqb k (m_idx s)) as [i|] eqn:G; [|reflexivity]. destruct (IR _ _ G) as (o & E & _).
        rewrite nth_error_app1 by (apply nth_error_Some; congruence). reflexivity.
      * exists (length (m_objs s)). split; [reflexivity|]. rewrite nth_error_app2, Nat.sub_diag by lia. reflexivity.
  - inversion H; subst. right. left. split; [reflexivity|]. split; [|reflexivity]. intros C.
    rewrite (prepare_complete _ _ IL HD C) in EP. discriminate.
  - exfalso. eapply (prepare_no_panic (m_lay s)); eauto.
Qed.

(** ** UPDATE *)
Lemma update_cases s w asg : ginv s -> m_iffy s = false ->
  match asked (m_lay s) w with
  | None => rstep farith order s (RUpdate w asg) = (s, RoErr EWhere)
  | Some k =>
      match aget pkey_eqb k (m_idx s) with
      | None => rstep farith order s (RUpdate w asg) = (s, RoErr ENoRow)
      | Some i => exists o, nth_error (m_objs s) i = Some o /\ ro_key o = k /\ rows_of s k = Some (ro_fields o) /\
          let '(m, r) := update_row farith (lo_fields (m_lay s)) (ro_fields o) asg in
          match r with
          | RoOk => rstep farith order s (RUpdate w asg) =
             (enqueue (mk_dd (m_dver s) i DkUpdate)
               (set_objs (upd_nth i (mk_row (ro_key o) m (m_dver s) (ro_sv o)) (m_objs s)) (bump_dver s)), RoOk)
          | _ => rstep farith order s (RUpdate w asg) = (set_objs (upd_nth i (with_fields m o) (m_objs s)) (bump_dver s), r)
          end
      end
  end.
Proof.
  intros [IL IN IR] F.
  assert (UP : tuniq_is_unique (tsel_uniq (lo_ptag (m_lay s))) = true) by (destruct IL as (_ & _ & f & _ & _ & U); exact U).
  pose proof (resolve_where_asked (m_lay s) w UP) as RW. cbn [rstep]. unfold exec_update. rewrite F.
  destruct (resolve_where (m_lay s) w) as [x|]; rewrite RW; [|reflexivity].
  destruct (aget pkey_eqb (lit_key x) (m_idx s)) as [i|] eqn:G; [|reflexivity].
  destruct (IR _ _ G) as (o & E & K). exists o. rewrite E. split; [reflexivity|]. split; [exact K|].
  unfold rows_of. rewrite G, E. split; [reflexivity|]. cbv zeta.
  destruct (update_row farith (lo_fields (m_lay s)) (ro_fields o) asg) as [m []]; reflexivity.
Qed.

Lemma nodup_lookup_eq (a b : rfields) : NoDup (akeys a) -> akeys a = akeys b ->
  (forall k, aget bseq k a = aget bseq k b) -> a = b.
Proof.
  revert b. induction a as [|[k v] a IH]; intros [|[k' v'] b] ND EK G; try discriminate; [reflexivity|].
  cbn [akeys map fst] in EK. injection EK as -> EK. inversion ND as [|? ? NI ND']; subst.
  pose proof (G k') as G1. cbn [aget] in G1. rewrite bseq_refl in G1. injection G1 as ->. f_equal.
  apply IH; auto. intros k. specialize (G k). cbn [aget] in G. destruct (bseq k k') eqn:E; [|exact G].
  apply bseq_eq in E. subst k'. rewrite (proj2 (aget_none _ bseq_eq k a)) by exact NI.
  rewrite (proj2 (aget_none _ bseq_eq k b)); [reflexivity|]. unfold akeys in *. rewrite <- EK. exact NI.
Qed.

Lemma update_error_same fs m asg m' e : NoDup (akeys m) -> NoDup (map as_lhs asg) -> Forall (fun a => ~ is_append fs a) asg ->
  update_row farith fs m asg = (m', RoErr e) -> m' = m.
Proof.
  intros NM ND NA H. symmetry. apply nodup_lookup_eq; [exact NM| |].
  - pose proof (update_row_keys farith fs m asg) as K. rewrite H in K. symmetry. exact K.
  - intros k. symmetry. eapply update_error_restores; eauto.
Qed.

(** ** classes survive every UPDATE *)

(** the declared shape, whatever the width and range *)
Inductive shaped : list tsel -> cell -> Prop :=
| sh_bool b : shaped [TsBool] (CBool b)
| sh_bin b : shaped [TsBin] (CBin b)
| sh_str b : shaped [TsStr] (CStr b)
| sh_num q q' w : same_class q q' -> shaped [qsel_tsel q] (CQw q' w)
| sh_list ls xs : (forall x, In x xs -> shaped ls x) -> shaped (TsList :: ls) (CList xs).
Definition row_shaped (fs : fieldmap) (m : rfields) : Prop :=
  forall k f c, aget bseq k fs = Some f -> aget bseq k m = Some c -> c = CNull \/ shaped (f_layers f) c.

Lemma shaped_lit t l : lit_class l = tsel_class t -> t <> TsList -> shaped [t] (lit_cell l).
Proof.
  intros H NL. destruct l; destruct t; try discriminate H; cbn [lit_cell]; try (constructor; fail);
    match goal with |- shaped [?t] (CQw ?q ?w) =>
      let qt := eval cbv in (tsel_qsel t) in match qt with Some ?x => apply (sh_num x q w); reflexivity end end.
Qed.

Lemma operator_shaped t o c l ok new : lit_class l = tsel_class t -> t <> TsList ->
  operator farith (tsel_class t) o c l = OrVal ok new -> new = CNull \/ shaped [t] new.
Proof.
  intros HL NL H.
  assert (NUM : forall q w, tsel_class (qsel_tsel q) = tsel_class t -> (tsel_class t = TcUInt \/ tsel_class t = TcSInt \/ tsel_class t = TcFloat) -> shaped [t] (CQw q w)).
  { intros q w E [K|[K|K]]; destruct t; try discriminate K;
      match goal with |- shaped [?t] _ => let qt := eval cbv in (tsel_qsel t) in
        match qt with Some ?x => apply (sh_num x q w); unfold same_class; rewrite E; reflexivity end end. }
  rewrite <- HL in H.
  assert (WO : forall k c0 q w, word_of k c0 = Some (q, w) -> tsel_class (qsel_tsel q) = k).
  { intros k c0 q w E. destruct c0; try discriminate E. cbn [word_of] in E.
    destruct (tclass_eqb (tsel_class (qsel_tsel q0)) k) eqn:EK; [|discriminate].
    apply tclass_eqb_eq in EK. congruence. }
  destruct l as [b|b|b|b|b|b]; cbn [lit_class operator] in H; cbn [lit_class] in HL.
  - destruct o; inversion H; subst; auto. right. destruct t; try discriminate HL. constructor.
  - destruct (word_of TcUInt c) as [[q w]|] eqn:EW; [|discriminate]. apply WO in EW.
    destruct (u_arith o w b) as [[w' ovf]|]; [|discriminate]. inversion H; subst. right. apply NUM; [congruence|auto].
  - destruct (word_of TcSInt c) as [[q w]|] eqn:EW; [|discriminate]. apply WO in EW.
    destruct (s_arith o w b) as [[w' ovf]|]; [|discriminate]. inversion H; subst. right. apply NUM; [congruence|auto].
  - destruct (word_of TcFloat c) as [[q w]|] eqn:EW; [|discriminate]. apply WO in EW.
    inversion H; subst. right. apply NUM; [congruence|auto].
  - destruct t; try discriminate HL. destruct o; try (inversion H; subst; auto; fail);
      [inversion H; subst; right; constructor|destruct c; inversion H; subst; right; constructor].
  - destruct t; try discriminate HL. destruct o; try (inversion H; subst; auto; fail);
      [inversion H; subst; right; constructor|destruct c; inversion H; subst; right; constructor].
Qed.

Lemma row_shaped_put fs m k new : row_shaped fs m ->
  (forall f, aget bseq k fs = Some f -> new = CNull \/ shaped (f_layers f) new) -> row_shaped fs (rf_update k new m).
Proof.
  intros R HN k' f c G GM. rewrite aget_rf_update in GM. destruct (bseq k' k) eqn:E; [|eapply R; eauto].
  apply bseq_eq in E. subst k'. destruct (aget bseq k m); [|discriminate]. inversion GM; subst. auto.
Qed.
Lemma rollback_shaped fs saved : forall m, row_shaped fs m ->
  (forall k c, In (k, c) saved -> forall f, aget bseq k fs = Some f -> c = CNull \/ shaped (f_layers f) c) ->
  row_shaped fs (rollback m saved).
Proof.
  unfold rollback. induction saved as [|[k c] saved IH]; intros m R HS; [exact R|]. cbn [fold_left fst snd].
  apply IH.
  - apply row_shaped_put; [exact R|]. apply HS. left; reflexivity.
  - intros k' c' Hin. apply HS. right; exact Hin.
Qed.

Lemma loop_shaped fs asg : (forall k f, aget bseq k fs = Some f -> layers_ok (f_layers f)) ->
  forall rb m saved, row_shaped fs m ->
  (forall k c, In (k, c) saved -> forall f, aget bseq k fs = Some f -> c = CNull \/ shaped (f_layers f) c) ->
  match upd_loop farith fs asg rb m saved with
  | UrDone m' | UrPanic m' => row_shaped fs m'
  | UrErr _ m' saved' => row_shaped fs (rollback m' saved')
  | UrUb => True
  end.
Proof.
  intros LK. induction asg as [|a asg IH]; intros rb m saved R HS; cbn [upd_loop].
  { destruct rb; [apply rollback_shaped; auto|exact R]. }
  destruct rb; [apply rollback_shaped; auto|]. unfold f_get.
  destruct (aget bseq (as_lhs a) fs) as [f|] eqn:GF; [|apply rollback_shaped; auto].
  destruct (aget bseq (as_lhs a) m) as [c|] eqn:GM; [|apply rollback_shaped; auto].
  destruct (f_layers f) as [|t rest] eqn:EL; [exact R|].
  assert (HC : c = CNull \/ shaped (f_layers f) c) by (eapply R; eauto).
  assert (HS' : forall k c', In (k, c') (saved ++ [(as_lhs a, c)]) -> forall f', aget bseq k fs = Some f' -> c' = CNull \/ shaped (f_layers f') c').
  { intros k c' Hin f' G. apply in_app_iff in Hin as [Hin|[Hin|[]]]; [eapply HS; eauto|].
    inversion Hin; subst. rewrite GF in G. inversion G; subst. exact HC. }
  pose proof (LK _ _ GF) as LO. rewrite EL in LO.
  destruct (tclass_eqb (tsel_class t) (lit_class (as_rhs a)) && negb (tclass_eqb (tsel_class t) TcList) && cell_init c) eqn:E1.
  { apply andb_true_iff in E1 as [E1 _]. apply andb_true_iff in E1 as [E1 E2].
    apply tclass_eqb_eq in E1. apply negb_true_iff in E2.
    assert (NL : t <> TsList) by (intros ->; discriminate).
    assert (rest = []) by (inversion LO; subst; [reflexivity|congruence]). subst rest.
    destruct (operator farith (tsel_class t) (as_op a) c (as_rhs a)) as [ok new| |] eqn:EO; [|exact R|exact Logic.I].
    apply IH; [|exact HS']. apply row_shaped_put; [exact R|]. intros f' G. rewrite GF in G. inversion G; subst.
    rewrite EL. eapply operator_shaped; eauto. }
  destruct (tclass_eqb (tsel_class t) (lit_class (as_rhs a)) && negb (cell_init c) && _) eqn:E3.
  { apply andb_true_iff in E3 as [E3 _]. apply andb_true_iff in E3 as [E3 _]. apply tclass_eqb_eq in E3.
    assert (NL : t <> TsList) by (intros ->; destruct (as_rhs a); discriminate).
    assert (rest = []) by (inversion LO; subst; [reflexivity|congruence]). subst rest.
    apply IH; [|exact HS']. apply row_shaped_put; [exact R|]. intros f' G. rewrite GF in G. inversion G; subst.
    rewrite EL. right. apply shaped_lit; auto. }
  destruct (tclass_eqb (tsel_class t) TcList && _) eqn:E4; [|apply rollback_shaped; auto].
  apply andb_true_iff in E4 as [E4 _]. apply class_list in E4. subst t.
  destruct rest as [|t1 rest]; [exact R|].
  destruct (tclass_eqb (tsel_class t1) (lit_class (as_rhs a))) eqn:E5; [|apply rollback_shaped; auto].
  apply tclass_eqb_eq in E5. destruct c as [| | | | |xs]; try exact Logic.I.
  apply IH; [|exact HS]. apply row_shaped_put; [exact R|]. intros f' G. rewrite GF in G. inversion G; subst f'.
  rewrite EL. right. constructor. intros x Hx. apply in_app_iff in Hx as [Hx|[<-|[]]].
  - destruct HC as [|HC]; [discriminate|]. rewrite EL in HC. inversion HC; subst. auto.
  - assert (NL : t1 <> TsList) by (intros ->; destruct (as_rhs a); discriminate).
    assert (rest = []). { inversion LO; subst. match goal with X : layers_ok (t1 :: rest) |- _ => inversion X; subst; [reflexivity|congruence] end. }
    subst rest. apply shaped_lit; auto.
Qed.

Lemma update_shaped fs m asg : (forall k f, aget bseq k fs = Some f -> layers_ok (f_layers f)) -> row_shaped fs m ->
  row_shaped fs (fst (update_row farith fs m asg)).
Proof.
  intros LK R. unfold update_row.
  pose proof (loop_shaped fs asg LK false m [] R (fun _ _ (X : In _ []) => match X with end)) as H.
  destruct (upd_loop farith fs asg false m []); cbn [fst]; exact H || exact R.
Qed.
End Lemmas.
