(** A model's data file byte for byte: the machine of BatchModel.v with the journal of JournalModel.v in
    the place of its list of batches, and the proof that nothing changes. Disk writes succeed here (for
    failing ones see BatchModel.v and C10). All paths are below /repo/server/src/engine/. *)
From Coq Require Import List Arith NArith Lia Bool Permutation.
From Verif Require Import Bytes AMap DataModel CodecModel CodecProofs CrcModel CrcProofs WriterModel
  WriterProofs HeaderModel HeaderProofs JournalModel JournalProofs TypeModel GnsCodecModel GnsModel GnsProofs
  RowModel RowSpec RowProofs RowTable RowUpd RowAlter RowLemmas BatchModel BatchProofs BatchCodec.
Import ListNotations.
Local Open Scope N_scope.

(** ** The byte machine *)

Section Machine.
Variable utf8 : bytes -> bool.
Variable cap : N.
Variable farith : aop -> N -> N -> N.
Variable order : fieldmap -> fieldmap.
(** the running build and the file's spec, HeaderModel.v *)
Variable b : build.
Variable sp : filespec.

(** [commit_with_ctx] of a [StdModelBatch], storage/v2/impls/mdl_journal.rs:302-322: the kind of the batch
    is 0 (305) *)
Definition data_commit (j : jw) (e : batch) : jw * wres := j_commit cap batch (fun _ => 0) (batch_commit cap) j e.
(** [ModelDriver::open_model_driver], mdl_journal.rs:69-71 *)
Definition data_open (file : bytes) (g : mst) : jres (mst * (jw * wres)) := j_open mst (batch_dec utf8) b sp [] file g.
(** [ModelDriver::create_model_driver], mdl_journal.rs:73-75 *)
Definition data_create (hdr : bytes) : jw := fst (j_create [] hdr).

(** One model with its file: memory, posted tasks, flush under way, and the open journal, whose
    [w_file] is the file. *)
Record dst := mk_dst { d_m : mst; d_tasks : list N; d_fl : option flight; d_j : jw }.
(** a freshly created model *)
Definition dst_new (l : layout) (hdr : bytes) : dst := mk_dst (mst_new l) [] None (data_create hdr).

(** the machine of BatchModel.v without its list of batches *)
Definition d_mem (d : dst) : bst := mk_bst (d_m d) [] (d_tasks d) (d_fl d) false false.
(** the batch of a flush, mdl_journal.rs:302-322 *)
Definition fl_batch (f : flight) : batch := mk_batch (fl_want f) (fl_tag f) (fl_schema f) (fl_cols f) (fl_evs f).

(** One event: the end of a flush appends the batch to the journal and syncs it (fractal/mgr.rs:549,
    raw/journal/raw/mod.rs:517-558); a restart closes the journal (raw/mod.rs:624-628), reads the file and
    opens the journal again. Everything else happens in memory. *)
Definition dstep (d : dst) (o : bop) : dst * bout :=
  match o with
  | BStep (WoFail _) | BEnd (WoFail _) => (d, BoOff) (* not in this machine *)
  | BEnd WoOk =>
      match d_fl d with
      | None => (d, BoOff)
      | Some f =>
          if fl_i f <? fl_want f then (d, BoOff) else
          match data_commit (d_j d) (fl_batch f) with
          | (j, WOk) => (mk_dst (d_m d) (d_tasks d) None j, BoDone)
          | (j, _) => (mk_dst (d_m d) (d_tasks d) None j, BoFail)
          end
      end
  | BRestart =>
      match d_fl d with
      | Some _ => (d, BoOff)
      | None =>
          match j_close (d_j d) with
          | (j, WOk) =>
              match data_open (w_file (j_w j)) (reload_base (d_m d)) with
              | JOk (m, (j', WOk)) => (mk_dst m [] None j', BoDone)
              | JOk (_, (_, _)) => (d, BoFail)
              | _ => (d, BoPanic)
              end
          | (_, _) => (d, BoFail)
          end
      end
  | _ => let '(s, r) := bstep farith order (d_mem d) o in (mk_dst (b_m s) (b_tasks s) (b_fl s) (d_j d), r)
  end.

(** a history of the byte machine *)
Inductive dhist : dst -> list (bop * bout) -> dst -> Prop :=
| dh_nil d : dhist d [] d
| dh_snoc d h d1 o d2 r : dhist d h d1 -> dstep d1 o = (d2, r) -> r <> BoUb -> r <> BoPanic ->
    r <> BoStmt RoUb -> dhist d (h ++ [(o, r)]) d2.

(** the file on the disk after a clean shutdown *)
Definition closed_bytes (d : dst) : bytes := w_file (j_w (fst (j_close (d_j d)))).
End Machine.

(** ** What is assumed of an operation *)

(** INSERTs have the shape the parser gives them, and the disk accepts all writes *)
Definition healthy (o : bop) : Prop :=
  match o with
  | BStmt q => stmt_ok q
  | BStep w | BEnd w => w = WoOk
  | _ => True
  end.

Section Fits.
Variable utf8 : bytes -> bool.
(** values that exist in a running server: numbers have 64 bits, strings are UTF-8 *)
Definition key_fits (k : pkey) : Prop :=
  match k with
  | PkUInt w | PkSInt w => w < two64
  | PkBin s => len s < two64
  | PkStr s => len s < two64 /\ utf8 s = true
  | PkNull => True
  end.
Definition bev_fits (e : bev) : Prop := be_txn e < two64 /\ key_fits (be_key e) /\ Forall (cell_wf utf8) (be_cells e).
Definition batch_fits (e : batch) : Prop :=
  ba_want e < two64 /\ ba_schema e < two64 /\ ba_cols e < two64 /\ Forall bev_fits (ba_evs e).
End Fits.

(** the size of the file: 64 bytes of header, each batch with its number and kind, two records per
    restart *)
Definition is_restart (e : bop * bout) : bool := match e with (BRestart, BoDone) => true | _ => false end.
Definition data_size (h : list (bop * bout)) (l : list batch) : N :=
  64 + fold_right (fun e n => 24 + len (batch_bytes e) + n) 0 l + 128 * N.of_nat (length (filter is_restart h)).

(** ** Shape of the batches *)

(** keys of the column's class; [PkNull] is a null key (which cannot be flushed) *)
Definition key_tag (t : tuniq) (k : pkey) : Prop :=
  match t, k with
  | TuUInt, PkUInt _ | TuSInt, PkSInt _ | TuBin, PkBin _ | TuStr, PkStr _ => True
  | _, _ => False
  end.
Definition ev_shape (t : tuniq) (cols : N) (e : bev) : Prop :=
  key_tag t (be_key e) /\
  match be_kind e with DkDelete => be_cells e = [] | _ => N.of_nat (length (be_cells e)) = cols end.
Definition batch_shape (e : batch) : Prop :=
  ba_tag e <> TuIllegal /\ ev_count e <= ba_want e /\ Forall (ev_shape (ba_tag e) (ba_cols e)) (ba_evs e).

Lemma shape_wf utf8 e : batch_shape e -> batch_fits utf8 e -> batch_wf utf8 e.
Proof.
  intros (T & C & F) (W & V & K & G). unfold batch_wf. repeat (split; [assumption|]).
  rewrite Forall_forall in *. intros x I. destruct (F x I) as (KT & CE). destruct (G x I) as (TX & KF & CF).
  split; [exact TX|]. split.
  - unfold key_wf, key_tag, key_fits in *. destruct (ba_tag e), (be_key x); try contradiction; exact KF.
  - destruct (be_kind x); try (split; assumption). exact CE.
Qed.

Definition keys_ok (s : mst) : Prop :=
  Forall (fun o => ro_key o = PkNull \/ key_tag (tsel_uniq (lo_ptag (m_lay s))) (ro_key o)) (m_objs s).
(** the flush under way *)
Definition fl_shape (s : mst) (f : flight) : Prop :=
  fl_tag f = tsel_uniq (lo_ptag (m_lay s)) /\ fl_cols f = N.of_nat (length (col_names (m_lay s))) /\
  N.of_nat (length (fl_evs f)) <= fl_i f /\ fl_i f <= fl_want f /\ Forall (ev_shape (fl_tag f) (fl_cols f)) (fl_evs f).

Record sinv (s : bst) : Prop := {
  si_g : ginv (b_m s);
  si_keys : keys_ok (b_m s);
  si_fl : match b_fl s with Some f => fl_shape (b_m s) f | None => True end;
  si_file : Forall batch_shape (b_file s);
  si_tag : Forall (fun e => ba_tag e = tsel_uniq (lo_ptag (m_lay (b_m s)))) (b_file s);
  si_torn : b_torn s = false;
  si_bad : b_bad s = false
}.

Lemma uniq_legal t : tuniq_is_unique t = true -> t <> TuIllegal.
Proof. destruct t; discriminate. Qed.
Lemma ginv_uniq s : ginv s -> tuniq_is_unique (tsel_uniq (lo_ptag (m_lay s))) = true.
Proof. intros [(_ & _ & f & _ & _ & U) _ _]. exact U. Qed.

(** the columns written are one less than the fields *)
Lemma filter_one (k : bytes) l : NoDup l -> In k l ->
  length l = S (length (filter (fun x => negb (bseq x k)) l)).
Proof.
  induction l as [|x l IH]; intros ND I; [contradiction|]. inversion ND as [|? ? NI ND']; subst. cbn [filter].
  destruct (bseq x k) eqn:E; cbn [negb].
  - apply bseq_eq in E. subst x. cbn [length]. f_equal.
    clear - NI. induction l as [|y l IH]; [reflexivity|]. cbn [filter].
    destruct (bseq y k) eqn:E; cbn [negb length]; [exfalso; apply bseq_eq in E; apply NI; left; auto|].
    f_equal. apply IH. intros H. apply NI. right. exact H.
  - cbn [length]. f_equal. apply IH; auto. destruct I as [->|I]; auto.
    exfalso. rewrite (proj2 (bseq_eq k k) eq_refl) in E. discriminate.
Qed.
Lemma cols_count l : lay_ok l -> N.of_nat (length (lo_fields l)) - 1 = N.of_nat (length (col_names l)).
Proof.
  intros (ND & _ & f & G & _). unfold col_names.
  rewrite <- (map_length fst (lo_fields l)).
  rewrite (filter_one (lo_pk l) (map fst (lo_fields l))).
  - rewrite Nat2N.inj_succ. lia.
  - exact ND.
  - apply (aget_in bseq bseq_eq) in G. apply (in_map fst) in G. exact G.
Qed.

Lemma ins_key_tag lay d : lay_ok lay -> conforming lay d ->
  ins_key lay d = PkNull \/ key_tag (tsel_uniq (lo_ptag lay)) (ins_key lay d).
Proof.
  intros (_ & _ & f & G & EL & U) (_ & C). destruct (C _ _ G) as (c & SU & A). unfold ins_key. rewrite SU.
  destruct A as [[-> _]|F]; [left; reflexivity|right]. rewrite EL in F.
  inversion F as [x E|x E|x E|q q' w R IR E|ls xs HX E]; subst; try (rewrite <- E in U; discriminate U);
    try (rewrite <- E in *; exact I || discriminate).
  rewrite <- E in U. unfold same_class in R. destruct q, q'; try discriminate R; try discriminate U; exact I.
Qed.

Lemma forall_upd {A} (P : A -> Prop) i x l : Forall P l -> P x -> Forall P (upd_nth i x l).
Proof. intros F. revert i. induction F as [|y l Y F IH]; intros i X; destruct i; cbn [upd_nth]; constructor; auto. Qed.
Lemma forall_nth {A} (P : A -> Prop) l i x : Forall P l -> nth_error l i = Some x -> P x.
Proof. intros F E. rewrite Forall_forall in F. apply F. eapply nth_error_In; eauto. Qed.

Definition kq (t : tuniq) (o : rowobj) : Prop := ro_key o = PkNull \/ key_tag t (ro_key o).
Lemma kq_resolve t sd o : kq t o -> kq t (resolve sd o).
Proof. unfold kq. rewrite resolve_key. auto. Qed.
Lemma scan_kq t lay sd cols : forall ids objs, Forall (kq t) objs -> Forall (kq t) (fst (scan_rows lay sd cols ids objs)).
Proof.
  induction ids as [|j ids IH]; intros objs R; cbn [scan_rows]; [exact R|].
  destruct (nth_error objs j) as [oj|] eqn:E; [|exact R]. cbv zeta.
  assert (R1 : Forall (kq t) (upd_nth j (resolve sd oj) objs)) by (apply forall_upd; auto; apply kq_resolve; eapply forall_nth; eauto).
  destruct (read_cols_all _ _ _ _); [|exact R1].
  specialize (IH _ R1). destruct (scan_rows lay sd cols ids (upd_nth j (resolve sd oj) objs)). exact IH.
Qed.

Section Inv.
Variable farith : aop -> N -> N -> N.
Variable order : fieldmap -> fieldmap.
Hypothesis order_perm : forall l, Permutation (order l) l.

Lemma keys_step s q s' r : ginv s -> stmt_ok q -> keys_ok s -> rstep farith order s q = (s', r) -> r <> RoUb -> keys_ok s'.
Proof.
  intros G HQ R H HU. destruct (grow_step farith order order_perm s q s' r G HQ H HU) as (_ & _ & TG & _).
  unfold keys_ok in *. rewrite TG. set (t := tsel_uniq (lo_ptag (m_lay s))) in *. fold (kq t) in *. clear TG.
  destruct G as [IL IN IR]. change (Forall (kq t) (m_objs s)) in R. change (Forall (kq t) (m_objs s')).
  destruct q as [d|w asg|w|w cols|cols limit|ak ok]; cbn [rstep stmt_ok] in *.
  - unfold exec_insert in H. destruct (m_iffy s); [inversion H; subst; exact R|].
    destruct (prepare_insert (m_lay s) d) as [[pk row]| |] eqn:EP; try (inversion H; subst; exact R).
    destruct (prepare_ok _ _ _ _ IL HQ EP) as (C & -> & ->).
    cbn [bump_dver set_dver m_idx m_objs sver m_sd] in H.
    destruct (aget pkey_eqb _ (m_idx s)) as [i0|] eqn:G0; inversion H; subst s' r; [exact R|].
    cbn [enqueue set_queue set_idx set_objs bump_dver set_dver m_objs].
    apply Forall_app. split; [exact R|]. constructor; [|constructor]. unfold kq. cbn [ro_key]. apply ins_key_tag; auto.
  - unfold exec_update in H. destruct (m_iffy s); [inversion H; subst; exact R|].
    destruct (resolve_where (m_lay s) w) as [x|]; [|inversion H; subst; exact R].
    destruct (aget pkey_eqb (lit_key x) (m_idx s)) as [i0|] eqn:G0; [|inversion H; subst; exact R].
    destruct (IR _ _ G0) as (o0 & E0 & K0). rewrite E0 in H.
    destruct (update_row farith (lo_fields (m_lay s)) (ro_fields o0) asg) as [m1 r1].
    pose proof (forall_nth _ _ _ _ R E0) as K.
    destruct r1; inversion H; subst s' r; cbn [enqueue set_queue set_idx set_objs bump_dver set_dver m_objs];
      apply forall_upd; auto; exact K.
  - unfold exec_delete in H. destruct (m_iffy s); [inversion H; subst; exact R|].
    destruct (resolve_where (m_lay s) w) as [x|]; [|inversion H; subst; exact R].
    destruct (aget pkey_eqb (lit_key x) _); inversion H; subst; exact R.
  - unfold exec_select in H.
    destruct (resolve_where (m_lay s) w) as [x|]; [|inversion H; subst; exact R].
    destruct (aget pkey_eqb (lit_key x) (m_idx s)) as [i0|] eqn:G0; [|inversion H; subst; exact R].
    destruct (IR _ _ G0) as (o0 & E0 & K0). rewrite E0 in H. cbv zeta in H.
    assert (ES : s' = set_objs (upd_nth i0 (resolve (m_sd s) o0) (m_objs s)) s) by (destruct (read_cols _ _ _ _); congruence).
    rewrite ES. cbn [set_objs m_objs]. apply forall_upd; auto. apply kq_resolve. eapply forall_nth; eauto.
  - unfold exec_select_all in H. destruct (match cols with None => false | Some l => _ end); [inversion H; subst; exact R|].
    pose proof (scan_kq t (m_lay s) (m_sd s) (match cols with None => map fst (lo_fields (m_lay s)) | Some l => l end)
      (firstn (N.to_nat (N.min limit (N.of_nat (length (m_idx s))))) (map snd (m_idx s))) (m_objs s) R) as K.
    destruct (scan_rows _ _ _ _ _) as [objs rr]. cbn [fst] in K. inversion H; subst. exact K.
  - destruct (alter_cases order order_perm _ _ _ _ _ IL H) as [[-> _]|(-> & _ & ES & _)]; [exact R|].
    rewrite ES. exact R.
Qed.

(** *** restore *)
Lemma fin_put_inv sv s e s' : ginv s -> keys_ok s -> key_tag (tsel_uniq (lo_ptag (m_lay s))) (be_key e) ->
  fin_put sv s e = Some s' -> ginv s' /\ keys_ok s' /\ m_lay s' = m_lay s.
Proof.
  intros G K KT. unfold fin_put. destruct (negb _); [discriminate|]. intros H; inversion H; subst s'; clear H.
  pose proof G as [IL IN IR]. split; [|split; [|reflexivity]].
  - constructor; cbn [set_idx set_objs m_lay m_idx m_objs]; [exact IL| |].
    + apply (nodup_put _ pkey_eqb_eq). apply (nodup_del _ pkey_eqb_eq). exact IN.
    + intros k i. destruct (pkey_eqb k (be_key e)) eqn:E.
      * apply pkey_eqb_eq in E. subst k. rewrite (aget_put_same _ pkey_eqb_eq). intros H; inversion H; subst i.
        exists (resolve (m_sd s) (mk_row (be_key e) (zip_cells (col_names (m_lay s)) (be_cells e)) (be_txn e) (N.to_nat sv))).
        rewrite nth_error_app2, Nat.sub_diag by lia. split; [reflexivity|]. apply resolve_key.
      * assert (NE : k <> be_key e) by (intros X; apply pkey_eqb_eq in X; congruence).
        rewrite (aget_put_other _ pkey_eqb_eq), (aget_del_other _ pkey_eqb_eq) by exact NE. intros H.
        destruct (IR _ _ H) as (o & EO & KO). exists o. split; [|exact KO].
        rewrite nth_error_app1 by (apply nth_error_Some; congruence). exact EO.
  - unfold keys_ok in *. cbn [set_idx set_objs m_lay m_objs]. apply Forall_app. split; [exact K|].
    constructor; [|constructor]. rewrite resolve_key. cbn [ro_key]. right. exact KT.
Qed.
Lemma fin_loop_inv sv es : forall s p last s' p' last', ginv s -> keys_ok s ->
  Forall (fun e => key_tag (tsel_uniq (lo_ptag (m_lay s))) (be_key e)) es ->
  fin_loop sv s p last es = Some (s', p', last') -> ginv s' /\ keys_ok s' /\ m_lay s' = m_lay s.
Proof.
  induction es as [|e es IH]; intros s p last s' p' last' G K F; cbn [fin_loop].
  - intros H; inversion H; subst. auto.
  - inversion F as [|? ? F1 F2]; subst. destruct (be_kind e); [apply IH; auto| |];
      (destruct (fin_put sv s e) as [s1|] eqn:EP; [|discriminate]; intros H;
       destruct (fin_put_inv _ _ _ _ G K F1 EP) as (G1 & K1 & L1);
       destruct (IH _ _ _ _ _ _ G1 K1 ltac:(rewrite L1; exact F2) H) as (G2 & K2 & L2); repeat split; try apply G2; auto; congruence).
Qed.
Lemma fin_drop_inv s kt : ginv s -> keys_ok s -> ginv (fin_drop s kt) /\ keys_ok (fin_drop s kt) /\ m_lay (fin_drop s kt) = m_lay s.
Proof.
  intros G K. unfold fin_drop. destruct (aget pkey_eqb (fst kt) (m_idx s)) as [i|]; auto.
  destruct (nth_error (m_objs s) i) as [o|]; auto. destruct (snd kt <? ro_rev o); auto.
  split; [|split; [exact K|reflexivity]]. destruct G as [IL IN IR]. constructor; cbn [set_idx m_lay m_idx m_objs]; [exact IL| |].
  - apply (nodup_del _ pkey_eqb_eq). exact IN.
  - intros k j H. destruct (pkey_eqb k (fst kt)) eqn:E.
    + apply pkey_eqb_eq in E. subst k. rewrite aget_del_same in H; discriminate.
    + rewrite (aget_del_other _ pkey_eqb_eq) in H; [auto|]. intros X. apply pkey_eqb_eq in X. congruence.
Qed.
Lemma fin_drops_inv p : forall s, ginv s -> keys_ok s ->
  ginv (fold_left fin_drop p s) /\ keys_ok (fold_left fin_drop p s) /\ m_lay (fold_left fin_drop p s) = m_lay s.
Proof.
  induction p as [|kt p IH]; intros s G K; cbn [fold_left]; auto.
  destruct (fin_drop_inv s kt G K) as (G1 & K1 & L1). destruct (IH _ G1 K1) as (G2 & K2 & L2).
  split; auto. split; auto. congruence.
Qed.
Lemma finish_inv s e s' : ginv s -> keys_ok s -> batch_shape e -> ba_tag e = tsel_uniq (lo_ptag (m_lay s)) ->
  finish s e = Some s' -> ginv s' /\ keys_ok s' /\ m_lay s' = m_lay s.
Proof.
  intros G K (_ & _ & F) T. unfold finish. destruct (fin_loop (ba_schema e) s [] 0 (ba_evs e)) as [[[s1 p] last]|] eqn:E; [|discriminate].
  intros H; inversion H; subst s'; clear H. apply fin_loop_inv in E as (G1 & K1 & L1); auto.
  - destruct (fin_drops_inv p s1 G1 K1) as (G2 & K2 & L2). split; [|split; [exact K2|]].
    + destruct G2 as [A B C]. constructor; assumption.
    + cbn [set_dver m_lay]. congruence.
  - rewrite T in F. eapply Forall_impl; [|exact F]. intros a [A _]. exact A.
Qed.
Lemma apply_inv l : forall s s', ginv s -> keys_ok s -> Forall batch_shape l ->
  Forall (fun e => ba_tag e = tsel_uniq (lo_ptag (m_lay s))) l ->
  apply_batches s l = Some s' -> ginv s' /\ keys_ok s' /\ m_lay s' = m_lay s.
Proof.
  induction l as [|e l IH]; intros s s' G K F T; cbn [apply_batches].
  - intros H; inversion H; subst. auto.
  - inversion F as [|? ? F1 F2]; inversion T as [|? ? T1 T2]; subst. destruct (finish s e) as [s1|] eqn:E; [|discriminate].
    destruct (finish_inv _ _ _ G K F1 T1 E) as (G1 & K1 & L1). intros H.
    destruct (IH s1 s' G1 K1 F2 ltac:(rewrite L1; exact T2) H) as (G2 & K2 & L2). split; auto. split; auto. congruence.
Qed.

(** *** one step of a flush *)
Lemma flush_one_inv s d s' x : ginv s -> keys_ok s -> flush_one s d = (s', x) ->
  ginv s' /\ keys_ok s' /\ m_lay s' = m_lay s /\
  match x with SrEv e => ev_shape (tsel_uniq (lo_ptag (m_lay s))) (N.of_nat (length (col_names (m_lay s)))) e | _ => True end.
Proof.
  intros G K. unfold flush_one. destruct (nth_error (m_objs s) (dd_row d)) as [o|] eqn:EO; [|intros H; inversion H; subst; auto].
  pose proof (forall_nth _ _ _ _ K EO) as KO.
  assert (SET : ginv (set_objs (upd_nth (dd_row d) (resolve (m_sd s) o) (m_objs s)) s) /\
                keys_ok (set_objs (upd_nth (dd_row d) (resolve (m_sd s) o) (m_objs s)) s)).
  { split.
    - destruct G as [IL IN IR]. constructor; cbn [set_objs m_lay m_idx m_objs]; [exact IL|exact IN|].
      intros k i H. destruct (IR _ _ H) as (x0 & E0 & K0). destruct (Nat.eq_dec (dd_row d) i) as [<-|NE].
      + exists (resolve (m_sd s) o). rewrite (nth_upd_same _ _ _ _ EO). split; [reflexivity|]. rewrite resolve_key. congruence.
      + exists x0. rewrite nth_upd_other by exact NE. auto.
    - unfold keys_ok in *. cbn [set_objs m_lay m_objs]. apply forall_upd; auto. rewrite resolve_key. exact KO. }
  destruct SET as [SG SK].
  assert (KT : ro_key o <> PkNull -> key_tag (tsel_uniq (lo_ptag (m_lay s))) (ro_key o)) by (intros N; destruct KO; [contradiction|auto]).
  destruct (dd_kind d) eqn:ED.
  - destruct (ro_key o) eqn:EK; intros H; inversion H; subst s' x; (split; [exact G|]; split; [exact K|]; split; [reflexivity|]);
      try exact I; (split; [apply KT; discriminate|reflexivity]).
  - destruct (dd_ver d <? ro_rev o); [intros H; inversion H; subst; auto|]. cbv zeta.
    destruct (ro_key o) eqn:EK; intros H; inversion H; subst s' x; (split; [exact SG|]; split; [exact SK|]; split; [reflexivity|]);
      try exact I; (split; [apply KT; discriminate|cbn [be_kind be_cells]; rewrite row_cells_len; reflexivity]).
  - destruct (dd_ver d <? ro_rev o); [intros H; inversion H; subst; auto|]. cbv zeta.
    destruct (ro_key o) eqn:EK; intros H; inversion H; subst s' x; (split; [exact SG|]; split; [exact SK|]; split; [reflexivity|]);
      try exact I; (split; [apply KT; discriminate|cbn [be_kind be_cells]; rewrite row_cells_len; reflexivity]).
Qed.

Lemma sinv_new lay : lay_ok lay -> sinv (bst_new lay).
Proof.
  intros L. constructor; try reflexivity; try constructor; cbn [bst_new b_m b_fl b_file]; try exact L; try constructor.
  - intros k i H. cbn in H. discriminate.
Qed.

Lemma sinv_step s o s' r : sinv s -> healthy o -> bstep farith order s o = (s', r) ->
  r <> BoUb -> r <> BoPanic -> r <> BoStmt RoUb ->
  sinv s' /\ b_file s' = b_file s ++ match o, r, b_fl s with BEnd WoOk, BoDone, Some f => [fl_batch f] | _, _, _ => [] end.
Proof.
  intros V HO H N1 N2 N3. destruct V as [G K FL FI TG TO BA]. destruct o as [q| |i|w|w| |]; cbn [bstep healthy] in *.
  - assert (X : (let '(m, r0) := rstep farith order (b_m s) q in
                 (mk_bst m (b_file s) (b_tasks s) (b_fl s) (b_torn s) (b_bad s), BoStmt r0)) = (s', r) \/
                (s' = s /\ r = BoOff)).
    { destruct q; auto. destruct (b_fl s); auto. right. inversion H; auto. }
    assert (AL : match q with RAlter _ _ => b_fl s = None \/ r = BoOff | _ => True end).
    { destruct q; auto. destruct (b_fl s); auto. right. inversion H; auto. }
    rewrite app_nil_r. destruct X as [X|[-> ->]]; [|split; [constructor; auto|reflexivity]].
    destruct (rstep farith order (b_m s) q) as [m r0] eqn:ES. inversion X; subst s' r; clear X.
    assert (U : r0 <> RoUb) by congruence.
    destruct (grow_step farith order order_perm _ _ _ _ G HO ES U) as (G' & P' & T' & _ & L' & _).
    split; [|reflexivity]. constructor; cbn [b_m b_fl b_file b_torn b_bad]; auto.
    + apply (keys_step _ _ _ _ G HO K ES U).
    + destruct (b_fl s) as [f|] eqn:EF; auto. assert (LL : m_lay m = m_lay (b_m s)).
      { destruct q; try apply L'. destruct AL as [AL|AL]; discriminate AL. }
      unfold fl_shape in *. rewrite LL. exact FL.
    + rewrite T'. exact TG.
  - rewrite app_nil_r. inversion H; subst s' r. split; [|reflexivity]. constructor; cbn [b_m b_fl b_file b_torn b_bad]; auto.
    destruct G; constructor; assumption.
  - rewrite app_nil_r. destruct (b_fl s) as [f|] eqn:EF.
    { inversion H; subst s' r. split; [constructor; auto; rewrite EF; auto|reflexivity]. }
    destruct (nth_error (b_tasks s) i) as [n|]; [|inversion H; subst s' r; split; [constructor; auto; rewrite EF; auto|reflexivity]].
    destruct (m_iffy (b_m s)); [inversion H; subst s' r; split; [constructor; auto|reflexivity]|].
    destruct (n =? 0); [inversion H; subst s' r; split; [constructor; auto|reflexivity]|].
    inversion H; subst s' r. split; [|reflexivity]. constructor; cbn [b_m b_fl b_file b_torn b_bad]; auto.
    unfold fl_shape; cbn [fl_tag fl_cols fl_evs fl_i fl_want length]. split; [reflexivity|]. split; [apply cols_count; apply G|].
    split; [reflexivity|]. split; [apply N.le_0_l|constructor].
  - subst w. rewrite app_nil_r. destruct (b_fl s) as [f|] eqn:EF; [|inversion H; subst s' r; split; [constructor; auto; rewrite EF; auto|reflexivity]].
    destruct (N.leb_spec (fl_want f) (fl_i f)) as [L|L]; [inversion H; subst s' r; split; [constructor; auto; rewrite EF; auto|reflexivity]|].
    destruct (m_queue (b_m s)) as [|d q] eqn:EQ; [inversion H; subst; contradiction|].
    set (m1 := set_queue q (m_qsize (b_m s)) (b_m s)) in *.
    assert (G1 : ginv m1) by (destruct G; constructor; assumption).
    destruct (flush_one m1 d) as [m2 x] eqn:EX. destruct (flush_one_inv m1 d m2 x G1 K EX) as (G2 & K2 & L2 & SH).
    change (m_lay m1) with (m_lay (b_m s)) in *. destruct FL as (F1 & F2 & F3 & F4 & F5).
    destruct x as [|e|]; inversion H; subst s' r; [| |contradiction].
    + split; [|reflexivity]. constructor; cbn [b_m b_fl b_file b_torn b_bad]; auto; [|rewrite L2; exact TG].
      unfold fl_shape; cbn [fl_tag fl_cols fl_evs fl_i fl_want]. rewrite L2. split; [exact F1|]. split; [exact F2|]. split; [lia|]. split; [lia|exact F5].
    + split; [|reflexivity]. constructor; cbn [b_m b_fl b_file b_torn b_bad]; auto; [|rewrite L2; exact TG].
      unfold fl_shape; cbn [fl_tag fl_cols fl_evs fl_i fl_want]. rewrite L2. split; [exact F1|]. split; [exact F2|].
      rewrite app_length. cbn [length]. split; [lia|]. split; [lia|]. apply Forall_app. split; [exact F5|]. constructor; [|constructor].
      rewrite F1, F2. exact SH.
  - subst w. destruct (b_fl s) as [f|] eqn:EF; [|inversion H; subst s' r; rewrite app_nil_r; split; [constructor; auto; rewrite EF; auto|reflexivity]].
    destruct (N.ltb_spec (fl_i f) (fl_want f)) as [L|L]; [inversion H; subst s' r; rewrite app_nil_r; split; [constructor; auto; rewrite EF; auto|reflexivity]|].
    inversion H; subst s' r. split; [|reflexivity]. destruct FL as (F1 & F2 & F3 & F4 & F5).
    constructor; cbn [b_m b_fl b_file b_torn b_bad]; auto.
    + apply Forall_app. split; [exact FI|]. constructor; [|constructor]. unfold batch_shape, ev_count; cbn [ba_tag ba_want ba_evs ba_cols].
      split; [rewrite F1; apply uniq_legal, ginv_uniq; exact G|]. split; [lia|exact F5].
    + apply Forall_app. split; [exact TG|]. constructor; [exact F1|constructor].
  - rewrite app_nil_r. destruct (b_fl s) as [f|] eqn:EF; [inversion H; subst s' r; split; [constructor; auto; rewrite EF; auto|reflexivity]|].
    rewrite TO in H. inversion H; subst s' r. split; [|reflexivity]. constructor; cbn [b_m b_fl b_file b_torn b_bad]; auto.
    destruct G; constructor; assumption.
  - rewrite app_nil_r. destruct (b_fl s) as [f|] eqn:EF; [inversion H; subst s' r; split; [constructor; auto; rewrite EF; auto|reflexivity]|].
    rewrite BA in H. destruct (apply_batches (reload_base (b_m s)) (b_file s)) as [m|] eqn:EA; inversion H; subst s' r; [|contradiction].
    split; [|reflexivity].
    assert (GB : ginv (reload_base (b_m s))) by (constructor; [apply G|constructor|intros k i0 X; discriminate X]).
    destruct (apply_inv _ _ _ GB (Forall_nil _) FI TG EA) as (G2 & K2 & L2).
    constructor; cbn [b_m b_fl b_file b_torn b_bad]; auto. rewrite L2. exact TG.
Qed.
End Inv.

(** ** Simulation *)
Section Sim.
Variable utf8 : bytes -> bool.
Variable cap : N.
Variable farith : aop -> N -> N -> N.
Variable order : fieldmap -> fieldmap.
Hypothesis order_perm : forall l, Permutation (order l) l.
Variable b : build.
Variable sp : filespec.
Variable hdr : bytes.
Hypothesis HH : hdr_ok b sp hdr.
Hypothesis CP : 0 < cap.
Variable lay : layout.
Hypothesis LO : lay_ok lay.

Local Notation m0 := (fun _ : batch => 0).
Local Notation bdisp := (fun (e : batch) (g : mst) => finish g e).
Local Notation bop_bytes := (ops_bytes batch m0 batch_bytes).
Local Notation js_of := (js_ops batch m0 batch_bytes js0).
Local Notation jlive := (live_file batch m0 batch_bytes hdr).
Local Notation jclosed := (closed_file batch m0 batch_bytes hdr).
Local Notation jok := (op_ok batch (batch_wf utf8)).
Local Notation devents := (events batch).

Definition op_of (s : bst) (o : bop) (r : bout) : list (JournalProofs.op batch) :=
  match o, r, b_fl s with
  | BEnd WoOk, BoDone, Some f => [OEv batch (fl_batch f)]
  | BRestart, BoDone, _ => [OCloseReopen batch]
  | _, _, _ => []
  end.

(** a history with what it does to the journal *)
Inductive dlog : list (bop * bout) -> bst -> list (JournalProofs.op batch) -> Prop :=
| dl_nil : dlog [] (bst_new lay) []
| dl_snoc h s ops o s' r : dlog h s ops -> healthy o -> bstep farith order s o = (s', r) ->
    r <> BoUb -> r <> BoPanic -> r <> BoStmt RoUb -> dlog (h ++ [(o, r)]) s' (ops ++ op_of s o r).

Lemma dlog_of h s : bhist farith order (bst_new lay) h s -> Forall (fun e => healthy (fst e)) h -> exists ops, dlog h s ops.
Proof.
  remember (bst_new lay) as s0. induction 1 as [s0|s0 h s1 o s2 r H IH E N1 N2 N3]; intros F; subst.
  - exists []. constructor.
  - apply Forall_app in F as [F1 F2]. inversion F2; subst. destruct (IH eq_refl F1) as [ops D]. eexists. econstructor; eauto.
Qed.
Lemma dlog_hist h s ops : dlog h s ops -> bhist farith order (bst_new lay) h s /\ Forall (fun e => healthy (fst e)) h.
Proof.
  induction 1 as [|h s ops o s' r D [IH IF] HO E N1 N2 N3]; [split; constructor|]. split; [econstructor; eauto|].
  apply Forall_app. split; auto.
Qed.

Lemma events_app x y : devents (x ++ y) = devents x ++ devents y.
Proof. unfold events. apply flat_map_app. Qed.

Definition adds (s : bst) (o : bop) (r : bout) : list batch :=
  match o, r, b_fl s with BEnd WoOk, BoDone, Some f => [fl_batch f] | _, _, _ => [] end.
Lemma step_kinds s o r :
  (op_of s o r = [] /\ adds s o r = [] /\ filter is_restart [(o, r)] = []) \/
  (exists f, op_of s o r = [OEv batch (fl_batch f)] /\ adds s o r = [fl_batch f] /\ filter is_restart [(o, r)] = []) \/
  (op_of s o r = [OCloseReopen batch] /\ adds s o r = [] /\ filter is_restart [(o, r)] = [(o, r)]).
Proof.
  unfold op_of, adds. destruct o as [q| |i|w|w| |]; try (left; auto; fail).
  - destruct w; [|left; auto]. destruct r; try (left; auto; fail). destruct (b_fl s) as [f|]; [|left; auto]. right. left. exists f. auto.
  - destruct r; try (left; auto; fail). right. right. auto.
Qed.
Definition sizes (l : list batch) : N := fold_right (fun e n => 24 + len (batch_bytes e) + n) 0 l.
Lemma sizes_app x y : sizes (x ++ y) = sizes x + sizes y.
Proof. unfold sizes. induction x as [|a x IH]; cbn [app fold_right]; [reflexivity|]. rewrite IH. lia. Qed.
Lemma data_size_eq h l : data_size h l = 64 + sizes l + 128 * N.of_nat (length (filter is_restart h)).
Proof. reflexivity. Qed.

Lemma dlog_inv h s ops : dlog h s ops -> sinv s /\ devents ops = b_file s /\
  64 + len (bop_bytes js0 ops) = data_size h (b_file s).
Proof.
  induction 1 as [|h s ops o s' r D (V & EV & SZ) HO E N1 N2 N3].
  - split; [apply sinv_new; exact LO|]. split; reflexivity.
  - destruct (sinv_step farith order order_perm s o s' r V HO E N1 N2 N3) as [V' F']. split; [exact V'|].
    fold (adds s o r) in F'. rewrite events_app, EV, F', ops_bytes_app, len_app.
    rewrite data_size_eq in *. rewrite sizes_app, filter_app, app_length.
    destruct (step_kinds s o r) as [(-> & -> & ->)|[(f & -> & -> & ->)|(-> & -> & ->)]].
    + split; [reflexivity|]. cbn [ops_bytes length]. rewrite len_nil. change (sizes []) with 0. lia.
    + split; [reflexivity|]. cbn [ops_bytes op_bytes length]. rewrite app_nil_r, ev_len. unfold sizes at 2; cbn [fold_right]. lia.
    + split; [reflexivity|]. cbn [ops_bytes op_bytes length]. rewrite app_nil_r, len_app, !dr_len. change (sizes []) with 0. lia.
Qed.

(** the byte machine's state corresponds to the abstract one *)
Definition same (d : dst) (s : bst) : Prop := d_m d = b_m s /\ d_tasks d = b_tasks s /\ d_fl d = b_fl s.

Lemma ok_events ops : Forall (batch_wf utf8) (devents ops) -> Forall jok ops.
Proof.
  induction ops as [|o ops IH]; intros F; constructor.
  - destruct o; cbn [events flat_map op_events app op_ok] in *; auto. inversion F; subst; auto.
  - apply IH. destruct o; cbn [events flat_map op_events app] in *; [inversion F; subst; auto|exact F].
Qed.

Lemma replay_apply_batches l : forall g, JournalProofs.replay mst batch bdisp l g = apply_batches g l.
Proof. induction l as [|e l IH]; intros g; cbn [JournalProofs.replay apply_batches]; [reflexivity|]. destruct (finish g e); auto. Qed.

Lemma mem_step s d o s' r : same d s -> (match o with BEnd _ | BRestart | BStep (WoFail _) => False | _ => True end) ->
  b_torn s = false -> b_bad s = false ->
  bstep farith order s o = (s', r) -> exists d', dstep utf8 cap farith order b sp d o = (d', r) /\ same d' s' /\ d_j d' = d_j d.
Proof.
  intros (E1 & E2 & E3) HO TO BA H. destruct d as [m ts fl j], s as [bm bf bt bfl bto bba]. cbn [d_m d_tasks d_fl b_m b_tasks b_fl b_torn b_bad] in *. subst.
  destruct o as [q| |i|w|w| |]; try contradiction; cbn [dstep].
  - unfold d_mem; cbn [d_m d_tasks d_fl]. cbn [bstep b_m b_fl b_file b_tasks b_torn b_bad] in *.
    destruct q; try (destruct (rstep farith order bm _) as [m' r'] eqn:ER; inversion H; subst s' r;
      eexists; split; [reflexivity|]; split; [repeat split|reflexivity]).
    destruct bfl; [inversion H; subst s' r; eexists; split; [reflexivity|]; split; [repeat split|reflexivity]|].
    destruct (rstep farith order bm _) as [m' r'] eqn:ER; inversion H; subst s' r;
      eexists; split; [reflexivity|]; split; [repeat split|reflexivity].
  - inversion H; subst s' r. eexists. split; [reflexivity|]. split; [repeat split|reflexivity].
  - unfold d_mem; cbn [d_m d_tasks d_fl]. cbn [bstep b_m b_fl b_file b_tasks b_torn b_bad] in *.
    destruct bfl; [inversion H; subst s' r; eexists; split; [reflexivity|]; split; [repeat split|reflexivity]|].
    destruct (nth_error bt i) as [n|]; [|inversion H; subst s' r; eexists; split; [reflexivity|]; split; [repeat split|reflexivity]].
    destruct (m_iffy bm); [inversion H; subst s' r; eexists; split; [reflexivity|]; split; [repeat split|reflexivity]|].
    destruct (n =? 0); inversion H; subst s' r; eexists; (split; [reflexivity|]; split; [repeat split|reflexivity]).
  - destruct w; [|contradiction]. unfold d_mem; cbn [d_m d_tasks d_fl]. cbn [bstep b_m b_fl b_file b_tasks b_torn b_bad] in *.
    destruct bfl as [f|]; [|inversion H; subst s' r; eexists; split; [reflexivity|]; split; [repeat split|reflexivity]].
    destruct (fl_want f <=? fl_i f); [inversion H; subst s' r; eexists; split; [reflexivity|]; split; [repeat split|reflexivity]|].
    destruct (m_queue bm) as [|dd q]; [inversion H; subst s' r; eexists; split; [reflexivity|]; split; [repeat split|reflexivity]|].
    destruct (flush_one _ dd) as [m2 [|e|]]; inversion H; subst s' r; eexists; (split; [reflexivity|]; split; [repeat split|reflexivity]).
  - unfold d_mem; cbn [d_m d_tasks d_fl]. cbn [bstep b_m b_fl b_file b_tasks b_torn b_bad] in *.
    destruct bfl; inversion H; subst s' r; eexists; (split; [reflexivity|]; split; [repeat split|reflexivity]).
Qed.

(** a restart, whatever its outcome *)
Lemma restart_step h s ops d s' r : dlog h s ops -> same d s -> jw_of cap (d_j d) (js_of ops) (jlive ops) ->
  Forall (batch_fits utf8) (b_file s) -> data_size h (b_file s) + 64 < two64 ->
  bstep farith order s BRestart = (s', r) ->
  exists d', dstep utf8 cap farith order b sp d BRestart = (d', r) /\ same d' s' /\
    jw_of cap (d_j d') (js_of (ops ++ op_of s BRestart r)) (jlive (ops ++ op_of s BRestart r)).
Proof.
  intros D (E1 & E2 & E3) J FT SZ H. destruct (dlog_inv _ _ _ D) as (V & EV & SE).
  assert (A : Forall jok ops).
  { apply ok_events. rewrite EV. rewrite Forall_forall in *. intros x I. apply shape_wf; auto. pose proof (si_file _ V) as SF. rewrite Forall_forall in SF. auto. }
  cbn [bstep] in H. cbn [dstep]. rewrite E3. destruct (b_fl s) as [f|] eqn:EF.
  { inversion H; subst s' r. exists d. split; [reflexivity|]. split; [repeat split; congruence|]. cbn [op_of]. rewrite app_nil_r. exact J. }
  rewrite (si_bad _ V) in H.
  destruct (close_ok cap batch m0 batch_bytes _ _ _ J) as (j1 & EC & FC). rewrite EC, FC.
  assert (LC : len (jclosed ops) < two64).
  { unfold closed_file. rewrite !len_app, dr_len. assert (len hdr = 64) by (unfold len; rewrite (proj1 HH); reflexivity). lia. }
  destruct (apply_batches (reload_base (b_m s)) (b_file s)) as [m|] eqn:EA; inversion H; subst s' r; clear H.
  - destruct (open_ok cap mst batch m0 (batch_dec utf8) batch_bytes bdisp (batch_wf utf8) ltac:(reflexivity)
      (fun e g sfx W => batch_dec_bytes utf8 g e sfx W) (batch_dec_suffix utf8) b sp hdr ops (reload_base (b_m s)) m HH A CP LC) as (j' & EO & J').
    { rewrite replay_apply_batches, EV. exact EA. }
    unfold data_open. rewrite E1, EO. eexists. split; [reflexivity|]. split; [repeat split|]. exact J'.
  - assert (EO : data_open utf8 b sp (jclosed ops) (reload_base (b_m s)) = JErr).
    { unfold data_open, j_open, closed_file. rewrite split_header_app by exact HH. rewrite scroll_scan.
      rewrite (scan_ops mst batch m0 (batch_dec utf8) batch_bytes bdisp (batch_wf utf8) ltac:(reflexivity)
        (fun e g sfx W => batch_dec_bytes utf8 g e sfx W) (batch_dec_suffix utf8)); auto using js0_wf.
      - rewrite replay_apply_batches, EV, EA. reflexivity.
      - unfold js0 at 1; cbn [s_off]. lia. }
    rewrite E1, EO. exists d. split; [reflexivity|]. split; [repeat split; congruence|]. cbn [op_of]. rewrite app_nil_r. exact J.
Qed.

Lemma end_step h s ops d s' r : dlog h s ops -> same d s -> jw_of cap (d_j d) (js_of ops) (jlive ops) ->
  (match b_fl s with Some f => batch_fits utf8 (fl_batch f) | None => True end \/ r <> BoDone) ->
  bstep farith order s (BEnd WoOk) = (s', r) ->
  exists d', dstep utf8 cap farith order b sp d (BEnd WoOk) = (d', r) /\ same d' s' /\
    jw_of cap (d_j d') (js_of (ops ++ op_of s (BEnd WoOk) r)) (jlive (ops ++ op_of s (BEnd WoOk) r)).
Proof.
  intros D (E1 & E2 & E3) J FT H. destruct (dlog_inv _ _ _ D) as (V & EV & SE).
  pose proof H as H'. cbn [bstep] in H'. cbn [dstep]. rewrite E3. destruct (b_fl s) as [f|] eqn:EF.
  2: { inversion H'; subst s' r. exists d. split; [reflexivity|]. split; [repeat split; congruence|]. cbn [op_of]. rewrite app_nil_r. exact J. }
  destruct (fl_i f <? fl_want f).
  { inversion H'; subst s' r. exists d. split; [reflexivity|]. split; [repeat split; congruence|]. cbn [op_of]. rewrite app_nil_r. exact J. }
  inversion H'; subst s' r; clear H'. destruct FT as [FT|FT]; [|congruence].
  destruct (sinv_step farith order order_perm s (BEnd WoOk) _ _ V eq_refl H ltac:(discriminate) ltac:(discriminate) ltac:(discriminate)) as [V' F'].
  assert (W : batch_wf utf8 (fl_batch f)).
  { apply shape_wf; auto. pose proof (si_file _ V') as SF. cbn [b_file] in SF. apply Forall_app in SF as [_ SF]. inversion SF; subst. assumption. }
  destruct (commit_ok cap batch m0 (batch_commit cap) batch_bytes (batch_wf utf8) (fun w d0 e We Hw Hp => batch_commit_happy utf8 cap w d0 e We Hw Hp) _ _ _ _ J W) as (j' & EC & J').
  unfold data_commit. rewrite EC. eexists. split; [reflexivity|]. split; [split; [exact E1|]; split; [exact E2|reflexivity]|].
  cbn [d_j]. unfold op_of. rewrite EF.
  unfold js_ops. rewrite fold_left_app. cbn [fold_left js_op]. unfold live_file in *. rewrite ops_bytes_app. cbn [ops_bytes op_bytes]. rewrite app_nil_r, app_assoc. exact J'.
Qed.

Lemma data_size_mono h e l x : data_size h l + 128 * N.of_nat (length (filter is_restart [e])) <= data_size (h ++ [e]) (l ++ x).
Proof. rewrite !data_size_eq, sizes_app, filter_app, app_length. lia. Qed.

(** every history happens byte for byte *)
Lemma simulate h s ops : dlog h s ops -> Forall (batch_fits utf8) (b_file s) -> data_size h (b_file s) < two64 ->
  exists d, dhist utf8 cap farith order b sp (dst_new lay hdr) h d /\ same d s /\ jw_of cap (d_j d) (js_of ops) (jlive ops).
Proof.
  induction 1 as [|h s ops o s' r D IH HO E N1 N2 N3]; intros FT SZ.
  - destruct (create_ok cap batch m0 batch_bytes hdr (proj1 HH)) as (j & EC & J). exists (dst_new lay hdr).
    split; [constructor|]. split; [repeat split|]. unfold dst_new, data_create; cbn [d_j]. rewrite EC. exact J.
  - destruct (dlog_inv _ _ _ D) as (V & EV & SE).
    pose proof (sinv_step farith order order_perm s o s' r V HO E N1 N2 N3) as [V' F'].
    fold (adds s o r) in F'. rewrite F' in FT, SZ. apply Forall_app in FT as [FT1 FT2].
    pose proof (data_size_mono h (o, r) (b_file s) (adds s o r)) as MO.
    destruct IH as (d & DH & SA & J); [exact FT1|lia|].
    assert (X : exists d', dstep utf8 cap farith order b sp d o = (d', r) /\ same d' s' /\
      jw_of cap (d_j d') (js_of (ops ++ op_of s o r)) (jlive (ops ++ op_of s o r))).
    { destruct o as [q| |i|w|w| |]; cbn [healthy] in HO.
      - destruct (mem_step s d (BStmt q) s' r SA I (si_torn _ V) (si_bad _ V) E) as (d' & A1 & A2 & A3). exists d'. rewrite A3.
        cbn [op_of]. rewrite app_nil_r. auto.
      - destruct (mem_step s d BTake s' r SA I (si_torn _ V) (si_bad _ V) E) as (d' & A1 & A2 & A3). exists d'. rewrite A3.
        cbn [op_of]. rewrite app_nil_r. auto.
      - destruct (mem_step s d (BBegin i) s' r SA I (si_torn _ V) (si_bad _ V) E) as (d' & A1 & A2 & A3). exists d'. rewrite A3.
        cbn [op_of]. rewrite app_nil_r. auto.
      - subst w. destruct (mem_step s d (BStep WoOk) s' r SA I (si_torn _ V) (si_bad _ V) E) as (d' & A1 & A2 & A3). exists d'. rewrite A3.
        cbn [op_of]. rewrite app_nil_r. auto.
      - subst w. apply (end_step h s ops d s' r D SA J); auto.
        unfold adds in FT2. destruct (b_fl s); [|left; exact I]. destruct r; try (right; discriminate). left. inversion FT2; subst; assumption.
      - destruct (mem_step s d BRecover s' r SA I (si_torn _ V) (si_bad _ V) E) as (d' & A1 & A2 & A3). exists d'. rewrite A3.
        cbn [op_of]. rewrite app_nil_r. auto.
      - destruct (is_restart (BRestart, r)) eqn:ER.
        + apply (restart_step h s ops d s' r D SA J FT1); [|exact E]. cbn [filter] in MO. rewrite ER in MO. cbn [length] in MO. lia.
        + assert (X : s' = s /\ r = BoOff /\ b_fl s <> None).
          { cbn [bstep] in E. destruct (b_fl s); [inversion E; subst; repeat split; discriminate|]. rewrite (si_bad _ V) in E.
            destruct (apply_batches _ _); inversion E; subst; [discriminate ER|contradiction]. }
          destruct X as (-> & -> & NF). exists d. cbn [dstep op_of]. rewrite app_nil_r. destruct SA as (SA1 & SA2 & SA3). rewrite SA3.
          destruct (b_fl s) eqn:EF; [|congruence]. split; [reflexivity|]. split; [repeat split; congruence|exact J]. }
    destruct X as (d' & A1 & A2 & A3). exists d'. split; [econstructor; eauto|]. auto.
Qed.

(** a clean close in the journal is a restart in the history *)
Lemma dlog_split h s ops : dlog h s ops -> forall ops1 ops2, ops = ops1 ++ OCloseReopen batch :: ops2 ->
  exists h1 h2 s1, h = h1 ++ (BRestart, BoDone) :: h2 /\ dlog h1 s1 ops1 /\ exists t, b_file s = b_file s1 ++ t.
Proof.
  induction 1 as [|h s ops o s' r D IH HO E N1 N2 N3]; intros ops1 ops2 EQ.
  - destruct ops1; discriminate EQ.
  - destruct (dlog_inv _ _ _ D) as (V & _ & _).
    destruct (sinv_step farith order order_perm s o s' r V HO E N1 N2 N3) as [_ F'].
    assert (IN : (exists ops2', ops = ops1 ++ OCloseReopen batch :: ops2') \/ (ops1 = ops /\ op_of s o r = [OCloseReopen batch])).
    { destruct (step_kinds s o r) as [(K & _)|[(f & K & _)|(K & _)]]; rewrite K in *.
      - rewrite app_nil_r in EQ. left. eauto.
      - left. destruct (exists_last (l := OCloseReopen batch :: ops2)) as (l & x & EL); [discriminate|]. rewrite EL, app_assoc in EQ.
        apply app_inj_tail in EQ as [EQ EX]. destruct l as [|y l]; [exfalso; injection EL as EL _; congruence|].
        injection EL as <- _. eauto.
      - destruct ops2 as [|y ops2]; [right; apply app_inj_tail in EQ as [-> _]; auto|]. left.
        destruct (exists_last (l := y :: ops2)) as (l & x & EL); [discriminate|]. rewrite EL in EQ.
        change (ops1 ++ OCloseReopen batch :: l ++ [x]) with (ops1 ++ (OCloseReopen batch :: l) ++ [x]) in EQ. rewrite app_assoc in EQ.
        apply app_inj_tail in EQ as [EQ _]. eauto. }
    destruct IN as [[ops2' EO]|[-> K]].
    + destruct (IH _ _ EO) as (h1 & h2 & s1 & -> & D1 & t & ET). exists h1, (h2 ++ [(o, r)]), s1. rewrite <- app_assoc. split; [reflexivity|].
      split; [exact D1|]. rewrite F', ET, <- app_assoc. eauto.
    + assert (X : o = BRestart /\ r = BoDone).
      { unfold op_of in K. destruct o as [| | | |w| |]; try discriminate K.
        - destruct w; [|discriminate K]. destruct r; try discriminate K. destruct (b_fl s); discriminate K.
        - destruct r; try discriminate K. auto. }
      destruct X as [-> ->]. exists h, [], s. split; [reflexivity|]. split; [exact D|]. exists []. rewrite F'. reflexivity.
Qed.
End Sim.
