(** Proofs about the upgrade of the storage format. *)
From Coq Require Import List Arith NArith Lia Bool Permutation Sorted.
From Verif Require Import Bytes AMap DataModel CodecModel CodecProofs DictModel TypeModel GnsCodecModel GnsModel GnsProofs
  RowModel RowSpec RowProofs RowTable RowUpd RowAlter RowLemmas BatchModel.
From Coq Require Import Permutation.
From Verif Require Import BatchProofs V1Model V1Spec V1FileProofs UpgradeModel UpgradeSpec.
Import ListNotations.
Local Open Scope N_scope.

(** ** Rows *)

Lemma fold_keeps ds : Forall is_add ds -> forall m c, In c (akeys m) -> In c (akeys (fold_left apply_sd ds m)).
Proof.
  induction 1 as [|d ds H HF IH]; intros m c I; [exact I|]. cbn [fold_left]. apply IH.
  destruct d as [f|f]; [|destruct H]. cbn [apply_sd]. unfold rf_insert. destruct (aget bseq f m); cbn [fst]; [exact I|].
  rewrite akeys_app. apply in_app_iff. auto.
Qed.
Lemma resolve_keeps sd o c : Forall is_add sd -> In c (akeys (ro_fields o)) -> In c (akeys (ro_fields (resolve sd o))).
Proof.
  intros A I. unfold resolve. destruct (Nat.leb _ _); [exact I|]. cbn [ro_fields]. apply fold_keeps; [apply forall_skipn, A | exact I].
Qed.

(** what an event turns into *)
Definition put_row (sv : N) (s : mst) (e : bev) : mst :=
  set_idx (aput pkey_eqb (be_key e) (length (m_objs s)) (adel pkey_eqb (be_key e) (m_idx s)))
      (set_objs (m_objs s ++ [resolve (m_sd s)
         (mk_row (be_key e) (zip_cells (col_names (m_lay s)) (be_cells e)) (be_txn e) (N.to_nat sv))]) s).

Lemma put_row_ok sv s e t : rinv s t -> (length (be_cells e) <= length (col_names (m_lay s)))%nat ->
  let s' := put_row sv s e in
  rinv s' (N.max t (be_txn e + 1)) /\
  (forall k, view s' k = if pkey_eqb (be_key e) k then Some (be_txn e, pad (length (col_names (m_lay s))) (be_cells e)) else view s k) /\
  (full s -> length (be_cells e) = length (col_names (m_lay s)) -> full s').
Proof.
  intros [[GL GN GR] RN RA RS RC RR] LN s'. unfold s', put_row.
  set (row := mk_row (be_key e) (zip_cells (col_names (m_lay s)) (be_cells e)) (be_txn e) (N.to_nat sv)).
  pose proof (col_names_nd _ GL) as ND.
  assert (NEW : forall i o, nth_error (m_objs s ++ [resolve (m_sd s) row]) i = Some o ->
            (nth_error (m_objs s) i = Some o) \/ (i = length (m_objs s) /\ o = resolve (m_sd s) row)).
  { intros i o E. destruct (Nat.lt_ge_cases i (length (m_objs s))) as [L|L].
    - rewrite nth_error_app1 in E by exact L. auto.
    - rewrite nth_error_app2 in E by exact L. destruct (i - length (m_objs s))%nat as [|[|?]] eqn:D; try discriminate.
      cbn in E. inversion E. right. split; [lia|reflexivity]. }
  assert (RK : ro_key (resolve (m_sd s) row) = be_key e) by (rewrite resolve_key; reflexivity).
  assert (RV : ro_rev (resolve (m_sd s) row) = be_txn e) by (rewrite resolve_rev; reflexivity).
  split; [|split].
  - constructor; cbn [m_lay m_sd m_queue m_objs m_idx set_idx set_objs].
    + constructor; cbn [m_lay m_idx m_objs set_idx set_objs]; [exact GL| |].
      * apply (nodup_put _ pkey_eqb_eq). apply (nodup_del _ pkey_eqb_eq). exact GN.
      * intros k i G. destruct (pkey_eqb k (be_key e)) eqn:E.
        -- apply pkey_eqb_eq in E. subst k. rewrite (aget_put_same _ pkey_eqb_eq) in G. inversion G; subst.
           rewrite nth_error_app2, Nat.sub_diag by lia. cbn [nth_error]. eexists. split; [reflexivity|exact RK].
        -- assert (NK : k <> be_key e) by (intros ->; rewrite pkey_eqb_refl in E; discriminate).
           rewrite (aget_put_other _ pkey_eqb_eq), (aget_del_other _ pkey_eqb_eq) in G by exact NK.
           destruct (GR _ _ G) as (o & E1 & E2). exists o. split; [|exact E2].
           rewrite nth_error_app1; [exact E1|]. apply nth_error_Some. congruence.
    + intros i o E. apply NEW in E as [E|[_ ->]]; [eapply RN; eauto|]. apply resolve_nd. apply zip_nd. exact ND.
    + exact RA.
    + exact RS.
    + intros i o E. apply NEW in E as [E|[_ ->]]; [eapply RC; eauto|]. apply resolve_keys; auto. apply zip_keys.
    + intros i o E. apply NEW in E as [E|[_ ->]]; [specialize (RR i o E); lia|]. lia.
  - intros k. unfold view. cbn [m_lay m_idx m_objs set_idx set_objs].
    destruct (pkey_eqb (be_key e) k) eqn:E.
    + apply pkey_eqb_eq in E. subst k. rewrite (aget_put_same _ pkey_eqb_eq), nth_error_app2, Nat.sub_diag by lia.
      cbn [nth_error]. rewrite RV, cells_resolve by exact RA. f_equal. f_equal. apply zip_vals; auto.
    + assert (NK : k <> be_key e) by (intros ->; rewrite pkey_eqb_refl in E; discriminate).
      rewrite (aget_put_other _ pkey_eqb_eq), (aget_del_other _ pkey_eqb_eq) by exact NK.
      destruct (aget pkey_eqb k (m_idx s)) as [i|] eqn:G; [|reflexivity].
      destruct (GR _ _ G) as (o & E1 & E2). rewrite nth_error_app1; [reflexivity|]. apply nth_error_Some. congruence.
  - intros FU LE i o E. cbn [m_objs m_lay set_idx set_objs] in *. apply NEW in E as [E|[_ ->]]; [eapply FU; eauto|].
    intros c Hc. apply resolve_keeps; [exact RA|]. cbn [ro_fields row].
    destruct (in_dec (list_eq_dec Byte.byte_eq_dec) c (akeys (zip_cells (col_names (m_lay s)) (be_cells e)))) as [I|I]; [exact I|].
    exfalso. apply (aget_none _ bseq_eq) in I. unfold zip_cells in I. rewrite zip_get in I by (auto; intros ? ? []).
    cbn [aget] in I. apply (aget_none _ bseq_eq) in I. apply I. rewrite keys_combine by exact LE. exact Hc.
Qed.

(** resolving a row changes nothing that is shown *)
Lemma touch_ok s t i o : rinv s t -> nth_error (m_objs s) i = Some o ->
  let s' := set_objs (upd_nth i (resolve (m_sd s) o) (m_objs s)) s in
  rinv s' t /\ (forall k, view s' k = view s k) /\ (full s -> full s').
Proof.
  intros [[GL GN GR] RN RA RS RC RR] E s'. unfold s'.
  assert (U : forall j p, nth_error (upd_nth i (resolve (m_sd s) o) (m_objs s)) j = Some p ->
     exists q, nth_error (m_objs s) j = Some q /\ (p = q \/ p = resolve (m_sd s) q)).
  { intros j p H. destruct (Nat.eq_dec j i) as [->|NE].
    - rewrite (nth_upd_same _ _ _ _ E) in H. exists o. split; [exact E|]. right. congruence.
    - rewrite nth_upd_other in H by congruence. eauto. }
  assert (U2 : forall j q, nth_error (m_objs s) j = Some q ->
     exists p, nth_error (upd_nth i (resolve (m_sd s) o) (m_objs s)) j = Some p /\ (p = q \/ p = resolve (m_sd s) q)).
  { intros j q H. destruct (Nat.eq_dec j i) as [->|NE].
    - rewrite (nth_upd_same _ _ _ _ E). eexists. split; [reflexivity|]. right. congruence.
    - rewrite nth_upd_other by congruence. eauto. }
  split; [|split].
  - constructor; cbn [m_lay m_sd m_queue m_objs m_idx set_objs]; [constructor; cbn [m_lay m_idx m_objs set_objs]| | | | |]; auto.
    + intros k j G. destruct (GR _ _ G) as (q & E1 & E2). destruct (U2 _ _ E1) as (p & E3 & E4). exists p. split; [exact E3|].
      destruct E4 as [-> | ->]; [exact E2|]. rewrite resolve_key. exact E2.
    + intros j p H. apply U in H as (q & H & [-> | ->]); [eapply RN; eauto|]. apply resolve_nd. eapply RN; eauto.
    + intros j p H. apply U in H as (q & H & [-> | ->]); [eapply RC; eauto|]. apply resolve_keys; auto. eapply RC; eauto.
    + intros j p H. apply U in H as (q & H & [-> | ->]); [eapply RR; eauto|]. rewrite resolve_rev. eapply RR; eauto.
  - intros k. unfold view. cbn [m_lay m_idx m_objs set_objs]. destruct (aget pkey_eqb k (m_idx s)) as [j|] eqn:G; [|reflexivity].
    destruct (GR _ _ G) as (q & E1 & _). destruct (U2 _ _ E1) as (p & E3 & E4). rewrite E1, E3.
    destruct E4 as [-> | ->]; [reflexivity|]. rewrite resolve_rev, cells_resolve by exact RA. reflexivity.
  - intros FU j p H c Hc. cbn [m_objs m_lay set_objs] in *. apply U in H as (q & H & [-> | ->]); [eapply FU; eauto|].
    apply resolve_keeps; [exact RA|]. eapply FU; eauto.
Qed.

(** a change of a key: the larger number wins *)
Definition vwin (n : nat) (v : option (N * list cell)) (e : bev) : option (N * list cell) :=
  match v with
  | Some (r, cs) => if be_txn e <? r then v else Some (be_txn e, pad n (be_cells e))
  | None => Some (be_txn e, pad n (be_cells e))
  end.

Lemma v1_put_ok sv s e t : rinv s t -> (length (be_cells e) <= length (col_names (m_lay s)))%nat ->
  let s' := v1_put sv s e in
  rinv s' (N.max t (be_txn e + 1)) /\ m_lay s' = m_lay s /\ m_sd s' = m_sd s /\
  m_dver s' = m_dver s /\ m_queue s' = m_queue s /\ m_qsize s' = m_qsize s /\ m_iffy s' = m_iffy s /\
  (forall k, view s' k = if pkey_eqb (be_key e) k then vwin (length (col_names (m_lay s))) (view s k) e else view s k) /\
  (full s -> length (be_cells e) = length (col_names (m_lay s)) -> full s').
Proof.
  intros R L. cbv zeta. unfold v1_put. fold (put_row sv s e).
  destruct (put_row_ok sv s e t R L) as (P1 & P2 & P3). cbv zeta in *.
  assert (PUT : (forall k, be_key e = k -> vwin (length (col_names (m_lay s))) (view s k) e =
                   Some (be_txn e, pad (length (col_names (m_lay s))) (be_cells e))) ->
    forall s', s' = put_row sv s e -> rinv s' (N.max t (be_txn e + 1)) /\ m_lay s' = m_lay s /\ m_sd s' = m_sd s /\
      m_dver s' = m_dver s /\ m_queue s' = m_queue s /\ m_qsize s' = m_qsize s /\ m_iffy s' = m_iffy s /\
      (forall k, view s' k = if pkey_eqb (be_key e) k then vwin (length (col_names (m_lay s))) (view s k) e else view s k) /\
      (full s -> length (be_cells e) = length (col_names (m_lay s)) -> full s')).
  { intros V s' ->. split; [exact P1|]. do 6 (split; [reflexivity|]). split; [|exact P3].
    intros k. rewrite P2. destruct (pkey_eqb (be_key e) k) eqn:EK; [|reflexivity]. apply pkey_eqb_eq in EK. symmetry. apply V. exact EK. }
  destruct (aget pkey_eqb (be_key e) (m_idx s)) as [i|] eqn:G.
  2: { apply PUT; [|reflexivity]. intros k <-. unfold view. rewrite G. reflexivity. }
  destruct (nth_error (m_objs s) i) as [o|] eqn:E.
  2: { apply PUT; [|reflexivity]. intros k <-. unfold view. rewrite G, E. reflexivity. }
  destruct (be_txn e <? ro_rev o) eqn:C.
  - destruct (touch_ok s t i o R E) as (T1 & T2 & T3). cbv zeta in *.
    split; [apply (rinv_mono _ t); [exact T1 | lia]|]. do 6 (split; [reflexivity|]). split; [|auto].
    intros k. rewrite T2. destruct (pkey_eqb (be_key e) k) eqn:EK; [|reflexivity]. apply pkey_eqb_eq in EK. subst k.
    unfold view. rewrite G, E. cbn [vwin]. rewrite C. reflexivity.
  - apply PUT; [|reflexivity]. intros k <-. unfold view. rewrite G, E. cbn [vwin]. rewrite C. reflexivity.
Qed.

(** the largest number of a list *)
Definition maxd (a : option N) (l : list N) : option N :=
  fold_left (fun a x => match a with Some y => Some (if x <? y then y else x) | None => Some x end) l a.

Definition top_txn (t : N) (es : list bev) : N := fold_left (fun t e => N.max t (be_txn e + 1)) es t.
Lemma top_txn_ge es : forall t, t <= top_txn t es.
Proof. induction es as [|e es IH]; intros t; [cbn; lia|]. cbn [top_txn fold_left]. specialize (IH (N.max t (be_txn e + 1))). unfold top_txn in IH. lia. Qed.

Lemma v1_scan_ok sv es : forall s p t, rinv s t -> fits (length (col_names (m_lay s))) es -> NoDup (akeys p) ->
  exists s' p', v1_scan sv s p es = (s', p') /\ rinv s' (top_txn t es) /\ m_lay s' = m_lay s /\ m_sd s' = m_sd s /\
    m_dver s' = m_dver s /\ m_queue s' = m_queue s /\ m_qsize s' = m_qsize s /\ m_iffy s' = m_iffy s /\ NoDup (akeys p') /\
    (forall k, view s' k = fold_left (vwin (length (col_names (m_lay s)))) (puts_of k es) (view s k)) /\
    (forall k, aget pkey_eqb k p' = maxd (aget pkey_eqb k p) (dels_of k es)) /\
    (full s -> exact_fit (length (col_names (m_lay s))) es -> full s').
Proof.
  induction es as [|e es IH]; intros s p t R F ND.
  { exists s, p. cbn. repeat (split; [solve [auto]|]). auto. }
  inversion F as [|? ? F1 F2]; subst. cbn [v1_scan].
  assert (PUT : be_kind e <> DkDelete -> exists s' p', v1_scan sv (v1_put sv s e) p es = (s', p') /\ rinv s' (top_txn t (e :: es)) /\ m_lay s' = m_lay s /\ m_sd s' = m_sd s /\
    m_dver s' = m_dver s /\ m_queue s' = m_queue s /\ m_qsize s' = m_qsize s /\ m_iffy s' = m_iffy s /\ NoDup (akeys p') /\
    (forall k, view s' k = fold_left (vwin (length (col_names (m_lay s)))) (puts_of k (e :: es)) (view s k)) /\
    (forall k, aget pkey_eqb k p' = maxd (aget pkey_eqb k p) (dels_of k (e :: es))) /\
    (full s -> exact_fit (length (col_names (m_lay s))) (e :: es) -> full s')).
  { intros NK. destruct (v1_put_ok sv s e t R (F1 NK)) as (P1 & P2 & P3 & P4 & P5 & P6 & P7 & P8 & P9). cbv zeta in *.
    destruct (IH (v1_put sv s e) p _ P1) as (s' & p' & Q0 & Q1 & Q2 & Q3 & Q4 & Q5 & Q6 & Q7 & Q8 & Q9 & Q10 & Q11); [rewrite P2; exact F2 | exact ND|].
    exists s', p'. rewrite P2 in *. split; [exact Q0|]. split; [exact Q1|]. do 6 (split; [congruence|]). split; [exact Q8|].
    split; [|split].
    - intros k. rewrite Q9, P8. unfold puts_of. cbn [filter].
      destruct (be_kind e); [congruence| |]; destruct (pkey_eqb (be_key e) k); reflexivity.
    - intros k. rewrite Q10. unfold dels_of. cbn [filter]. destruct (be_kind e); [congruence| |]; reflexivity.
    - intros FU EF. inversion EF as [|? ? EF1 EF2]; subst. apply Q11; [apply P9; [exact FU | apply EF1, NK] | exact EF2]. }
  destruct (be_kind e) eqn:EK; [|apply PUT; discriminate | apply PUT; discriminate]. clear PUT.
  assert (G : forall k, aget pkey_eqb k (fin_del p e) = if pkey_eqb (be_key e) k then maxd (aget pkey_eqb k p) [be_txn e] else aget pkey_eqb k p).
  { intros k. destruct (pkey_eqb (be_key e) k) eqn:E.
    - apply pkey_eqb_eq in E. subst k. unfold fin_del. cbn [maxd fold_left]. destruct (aget pkey_eqb (be_key e) p) as [y|] eqn:GE.
      + destruct (be_txn e <? y); [exact GE|]. apply (aget_put_same _ pkey_eqb_eq).
      + apply (aget_put_same _ pkey_eqb_eq).
    - assert (NK : k <> be_key e) by (intros ->; rewrite pkey_eqb_refl in E; discriminate).
      unfold fin_del. destruct (aget pkey_eqb (be_key e) p) as [y|]; [destruct (be_txn e <? y); [reflexivity|]|];
        apply (aget_put_other _ pkey_eqb_eq); exact NK. }
  assert (ND' : NoDup (akeys (fin_del p e))).
  { unfold fin_del. destruct (aget pkey_eqb (be_key e) p) as [y|]; [destruct (be_txn e <? y); [exact ND|]|];
      apply (nodup_put _ pkey_eqb_eq); exact ND. }
  destruct (IH s (fin_del p e) (N.max t (be_txn e + 1))) as (s' & p' & Q0 & Q1 & Q2 & Q3 & Q4 & Q5 & Q6 & Q7 & Q8 & Q9 & Q10 & Q11); try assumption.
  { apply (rinv_mono _ t); [exact R | lia]. }
  exists s', p'. split; [exact Q0|]. split; [exact Q1|]. do 6 (split; [congruence|]). split; [exact Q8|].
  split; [|split].
  - intros k. rewrite Q9. unfold puts_of. cbn [filter]. rewrite EK. reflexivity.
  - intros k. rewrite Q10, G. unfold dels_of. cbn [filter]. rewrite EK. destruct (pkey_eqb (be_key e) k); reflexivity.
  - intros FU EF. inversion EF; subst. auto.
Qed.

Definition has_row (s : mst) (k : pkey) : bool := match aget pkey_eqb k (m_idx s) with Some _ => true | None => false end.
Lemma has_row_view s t k : rinv s t -> has_row s k = match view s k with Some _ => true | None => false end.
Proof.
  intros R. unfold has_row, view. destruct (aget pkey_eqb k (m_idx s)) as [i|] eqn:G; [|reflexivity].
  destruct (gi_row _ (ri_g _ _ R) _ _ G) as (o & -> & _). reflexivity.
Qed.
Lemma fin_drop_has s kt k : k <> fst kt -> has_row (fin_drop s kt) k = has_row s k.
Proof.
  intros N. unfold fin_drop. destruct (aget pkey_eqb (fst kt) (m_idx s)) as [i|]; [|reflexivity].
  destruct (nth_error (m_objs s) i) as [o|]; [|reflexivity]. destruct (snd kt <? ro_rev o); [reflexivity|].
  unfold has_row. cbn [m_idx set_idx]. rewrite (aget_del_other _ pkey_eqb_eq) by exact N. reflexivity.
Qed.
Lemma v1_drops_eq p : forall s, NoDup (akeys p) ->
  v1_drops s p = if forallb (fun kt => has_row s (fst kt)) p then Some (fold_left fin_drop p s) else None.
Proof.
  induction p as [|kt p IH]; intros s ND; [reflexivity|]. cbn [v1_drops forallb fold_left].
  change (akeys (kt :: p)) with (fst kt :: akeys p) in ND. inversion ND as [|? ? NI ND']; subst.
  unfold has_row at 1. destruct (aget pkey_eqb (fst kt) (m_idx s)) as [i|]; [|reflexivity]. cbn [andb].
  rewrite IH by exact ND'. 
  assert (X : forallb (fun kt0 => has_row (fin_drop s kt) (fst kt0)) p = forallb (fun kt0 => has_row s (fst kt0)) p).
  { clear -NI. induction p as [|x p IH]; [reflexivity|]. cbn [forallb]. rewrite IH by (intros I; apply NI; right; exact I).
    rewrite fin_drop_has; [reflexivity|]. intros E. apply NI. left. exact E. }
  rewrite X. reflexivity.
Qed.

(** the value after a batch *)
Definition v1_value (n : nat) (k : pkey) (es : list bev) (v : option (N * list cell)) : option (N * list cell) :=
  match fold_left (vwin n) (puts_of k es) v, maxd None (dels_of k es) with
  | Some (r, cs), Some d => if d <? r then Some (r, cs) else None
  | w, _ => w
  end.

Lemma maxd_none l : maxd None l = None -> l = [].
Proof.
  destruct l as [|x l]; [reflexivity|]. cbn [maxd fold_left]. intros H. exfalso. revert x H.
  induction l as [|y l IH]; intros x H; [discriminate H|]. cbn [fold_left] in H. exact (IH _ H).
Qed.

(** exactly when a batch can be applied, and what it does *)
Theorem v1_apply_exact sv es s t : rinv s t -> fits (length (col_names (m_lay s))) es ->
  ((forall k, dels_of k es <> [] -> view s k <> None \/ puts_of k es <> []) /\
   exists s', v1_apply s sv es = Some s' /\ rinv s' (top_txn t es) /\ m_lay s' = m_lay s /\ m_sd s' = m_sd s /\
     m_dver s' = m_dver s /\ m_queue s' = m_queue s /\ m_qsize s' = m_qsize s /\ m_iffy s' = m_iffy s /\
     (forall k, view s' k = v1_value (length (col_names (m_lay s))) k es (view s k)) /\
     (full s -> exact_fit (length (col_names (m_lay s))) es -> full s')) \/
  (v1_apply s sv es = None /\ exists k, dels_of k es <> [] /\ view s k = None /\ puts_of k es = []).
Proof.
  intros R F. destruct (v1_scan_ok sv es s [] t R F (NoDup_nil _)) as (s1 & p & Q0 & Q1 & Q2 & Q3 & Q4 & Q5 & Q6 & Q7 & Q8 & Q9 & Q10 & Q11).
  set (n := length (col_names (m_lay s))) in *.
  assert (VN : forall k, view s1 k = None <-> view s k = None /\ puts_of k es = []).
  { intros k. rewrite Q9. split.
    - destruct (puts_of k es) as [|e l] eqn:E; [auto|]. intros H. exfalso. cbn [fold_left] in H.
      assert (X : forall l v, v <> None -> fold_left (vwin n) l v <> None).
      { clear. induction l as [|e l IH]; intros v H; [exact H|]. cbn [fold_left]. apply IH. unfold vwin. destruct v as [[r c]|]; [|congruence].
        destruct (_ <? _); discriminate. }
      revert H. apply X. unfold vwin. destruct (view s k) as [[r c]|]; [destruct (_ <? _)|]; discriminate.
    - intros [H1 H2]. rewrite H1, H2. reflexivity. }
  assert (PIN : forall k, In k (akeys p) <-> dels_of k es <> []).
  { intros k. pose proof (Q10 k) as H. cbn [aget] in H. split.
    - intros I D. rewrite D in H. cbn in H. apply (aget_none _ pkey_eqb_eq) in H. contradiction.
    - intros D. destruct (aget pkey_eqb k p) as [y|] eqn:G; [exact (aget_some_key _ pkey_eqb_eq _ _ _ G)|].
      exfalso. apply D. apply maxd_none. congruence. }
  unfold v1_apply. rewrite Q0, v1_drops_eq by exact Q8.
  destruct (forallb (fun kt => has_row s1 (fst kt)) p) eqn:FB.
  - left. rewrite forallb_forall in FB. split.
    { intros k D. apply PIN in D. unfold akeys in D. apply in_map_iff in D as (kt & <- & I). specialize (FB _ I).
      rewrite (has_row_view _ _ _ Q1) in FB. destruct (view s (fst kt)) eqn:E1; [left; discriminate|]. right. intros E2.
      rewrite (proj2 (VN (fst kt)) (conj E1 E2)) in FB. discriminate FB. }
    destruct (fin_drops p s1 _ Q1 Q8) as (R2 & L2 & SD2 & O2 & Q'2 & QS2 & IF2 & V2). cbv zeta in *.
    eexists. split; [reflexivity|]. split; [exact R2|]. split; [congruence|]. split; [congruence|].
    split. { rewrite <- Q4. clear. revert s1. induction p as [|kt p IH]; intros s1; [reflexivity|]. cbn [fold_left]. rewrite IH.
             unfold fin_drop. destruct (aget _ _ _); [|reflexivity]. destruct (nth_error _ _); [|reflexivity]. destruct (_ <? _); reflexivity. }
    do 3 (split; [congruence|]). split.
    + intros k. rewrite V2. unfold mview, v1_value. rewrite Q9, Q10. cbn [aget].
      destruct (fold_left (vwin n) (puts_of k es) (view s k)) as [[r cs]|]; [|reflexivity]. destruct (maxd None (dels_of k es)); reflexivity.
    + intros FU EF i o E. rewrite O2 in E. rewrite L2. eapply (Q11 FU EF). exact E.
  - right. split; [reflexivity|].
    assert (X : exists kt, In kt p /\ has_row s1 (fst kt) = false).
    { clear -FB. induction p as [|kt p IH]; [discriminate FB|]. cbn [forallb] in FB. destruct (has_row s1 (fst kt)) eqn:H.
      - destruct (IH FB) as (x & I & E). exists x. split; [right; exact I | exact E].
      - exists kt. split; [left; reflexivity | exact H]. }
    destruct X as (kt & I & H). exists (fst kt). split; [apply PIN; apply in_map; exact I|].
    rewrite (has_row_view _ _ _ Q1) in H. apply VN. destruct (view s1 (fst kt)); [discriminate H | reflexivity].
Qed.

(** the winner is the newest value *)
Lemma vwin_newest n l : forall v, newest n v l (fold_left (vwin n) l v).
Proof.
  induction l as [|e l IH] using rev_ind; intros v.
  - cbn. destruct v as [[r cs]|]; cbn; auto.
  - rewrite fold_left_app. cbn [fold_left]. specialize (IH v). destruct (fold_left (vwin n) l v) as [[r cs]|] eqn:E.
    + cbn [vwin]. destruct (N.ltb_spec (be_txn e) r) as [L|L].
      * cbn [newest] in *. destruct IH as [[-> H] | (a & x & b & -> & X1 & X2 & X3 & X4 & X5)].
        -- left. split; [reflexivity|]. apply Forall_app. split; [exact H|]. constructor; [lia | constructor].
        -- right. exists a, x, (b ++ [e]). rewrite <- app_assoc. split; [reflexivity|]. split; [exact X1|]. split; [exact X2|].
           split; [exact X3|]. split; [|exact X5]. apply Forall_app. split; [exact X4|]. constructor; [lia | constructor].
      * cbn [newest] in *. right. exists l, e, []. split; [reflexivity|]. split; [reflexivity|]. split; [reflexivity|].
        destruct IH as [[-> H] | (a & x & b & -> & X1 & X2 & X3 & X4 & X5)].
        -- split; [eapply Forall_impl; [|exact H]; cbn; intros; lia|]. split; [constructor|]. intros r0 cs0 Q. inversion Q; subst. lia.
        -- split; [|split; [constructor|]].
           ++ apply Forall_app. split; [eapply Forall_impl; [|exact X3]; cbn; intros; lia|].
              constructor; [lia|]. eapply Forall_impl; [|exact X4]; cbn; intros; lia.
           ++ intros r0 cs0 Q. specialize (X5 _ _ Q). lia.
    + cbn [vwin newest] in *. destruct IH as [-> ->]. right. exists [], e, []. cbn. repeat (split; [solve [auto]|]). intros; discriminate.
Qed.

(** with increasing numbers this is the sequential meaning *)
Lemma fold_vwin_lt n l : forall v, (forall r cs, v = Some (r, cs) -> Forall (fun e => r <= be_txn e) l) ->
  incr 0 (map be_txn l) -> fold_left (vwin n) l v = match rev l with [] => v | e :: _ => Some (be_txn e, pad n (be_cells e)) end.
Proof.
  induction l as [|e l IH]; intros v H I; [reflexivity|]. cbn [fold_left map incr rev] in *. destruct I as [_ I].
  assert (V : vwin n v e = Some (be_txn e, pad n (be_cells e))).
  { unfold vwin. destruct v as [[r cs]|]; [|reflexivity]. specialize (H _ _ eq_refl). inversion H; subst. destruct (N.ltb_spec (be_txn e) r); [lia | reflexivity]. }
  rewrite V, IH.
  - destruct (rev l) as [|x y] eqn:E; reflexivity.
  - intros r cs Q. inversion Q; subst. apply incr_lt in I. rewrite Forall_map in I. eapply Forall_impl; [|exact I]. cbn. intros. lia.
  - eapply incr_mono; [|exact I]. lia.
Qed.

Lemma v1_value_seq n k es : forall t v, (forall r cs, v = Some (r, cs) -> r < t) -> incr t (txns es) ->
  v1_value n k es v = kfold n k es v.
Proof.
  induction es as [|e es IH] using rev_ind; intros t v B I.
  { unfold v1_value. cbn. destruct v as [[r cs]|]; reflexivity. }
  unfold txns in I. rewrite map_app in I. apply incr_app in I as [I1 I2]. cbn [map incr] in I2. destruct I2 as [I2 _].
  rewrite kfold_app. rewrite <- (IH t v B I1). cbn [kfold fold_left].
  assert (LT : Forall (fun x => be_txn x < be_txn e) es).
  { apply incr_lt in I1. rewrite Forall_map in I1. eapply Forall_impl; [|exact I1]. cbn. intros. fold (txns es) in *. unfold txns in *. lia. }
  assert (BT : t <= be_txn e) by (pose proof (bound_ge _ _ I1); lia).
  (* the winner among the earlier ones is older *)
  assert (WB : forall l w, Forall (fun x => be_txn x < be_txn e) l -> (forall r cs, w = Some (r, cs) -> r < be_txn e) ->
     forall r cs, fold_left (vwin n) l w = Some (r, cs) -> r < be_txn e).
  { clear. induction l as [|x l IHl]; intros w F H r cs E; [eapply H; exact E|]. cbn [fold_left] in E. inversion F; subst.
    eapply IHl; [eassumption| |exact E]. intros r0 cs0 Q. unfold vwin in Q. destruct w as [[r1 c1]|].
    - destruct (_ <? _); [eapply H; exact Q | inversion Q; subst; assumption].
    - inversion Q; subst. assumption. }
  assert (PF : Forall (fun x => be_txn x < be_txn e) (puts_of k es)).
  { apply Forall_forall. intros x Hx. apply filter_In in Hx as [Hx _]. rewrite Forall_forall in LT. auto. }
  assert (VB : forall r cs, v = Some (r, cs) -> r < be_txn e) by (intros r cs Q; specialize (B _ _ Q); lia).
  pose proof (WB _ _ PF VB) as WB'. clear WB.
  assert (DF : forall l a d, Forall (fun x => x < be_txn e) l -> (forall y, a = Some y -> y < be_txn e) -> maxd a l = Some d -> d < be_txn e).
  { clear. induction l as [|x l IHl]; intros a d F H E; [apply H; exact E|]. cbn [maxd fold_left] in E. inversion F; subst.
    eapply IHl; [eassumption| |exact E]. intros y Q. destruct a as [z|]; [|inversion Q; subst; assumption].
    destruct (x <? z); inversion Q; subst; auto. }
  assert (DL : Forall (fun x => x < be_txn e) (dels_of k es)).
  { unfold dels_of. rewrite Forall_map. apply Forall_forall. intros x Hx. apply filter_In in Hx as [Hx _]. rewrite Forall_forall in LT. apply LT, Hx. }
  assert (DF' : forall d, maxd None (dels_of k es) = Some d -> d < be_txn e) by (intros d; apply DF; [exact DL | intros; discriminate]).
  unfold v1_value, puts_of, dels_of. rewrite !filter_app, !map_app. unfold kstep.
  fold (puts_of k es). change (map be_txn (filter _ es)) with (dels_of k es).
  rewrite fold_left_app. unfold maxd in *. rewrite fold_left_app. fold (maxd None (dels_of k es)) in *.
  cbn [filter]. destruct (pkey_eqb (be_key e) k) eqn:EK.
  2: { destruct (be_kind e); cbn [map fold_left]; reflexivity. }
  destruct (be_kind e) eqn:K; cbn [map fold_left].
  - destruct (fold_left (vwin n) (puts_of k es) v) as [[r cs]|] eqn:W; [|destruct (maxd None (dels_of k es)); reflexivity].
    specialize (WB' _ _ eq_refl).
    destruct (maxd None (dels_of k es)) as [d|] eqn:D.
    + specialize (DF' _ eq_refl). destruct (N.ltb_spec (be_txn e) d); [lia|]. destruct (N.ltb_spec (be_txn e) r); [lia|].
      destruct (d <? r); [|reflexivity]. destruct (N.leb_spec r (be_txn e)); [reflexivity | lia].
    + destruct (N.ltb_spec (be_txn e) r); [lia|]. destruct (N.leb_spec r (be_txn e)); [reflexivity | lia].
  - assert (V : vwin n (fold_left (vwin n) (puts_of k es) v) e = Some (be_txn e, pad n (be_cells e))).
    { unfold vwin at 1. destruct (fold_left (vwin n) (puts_of k es) v) as [[r cs]|]; [|reflexivity]. specialize (WB' _ _ eq_refl).
      destruct (N.ltb_spec (be_txn e) r); [lia | reflexivity]. }
    rewrite V. destruct (maxd None (dels_of k es)) as [d|]; [|reflexivity]. specialize (DF' _ eq_refl).
    destruct (N.ltb_spec d (be_txn e)); [reflexivity | lia].
  - assert (V : vwin n (fold_left (vwin n) (puts_of k es) v) e = Some (be_txn e, pad n (be_cells e))).
    { unfold vwin at 1. destruct (fold_left (vwin n) (puts_of k es) v) as [[r cs]|]; [|reflexivity]. specialize (WB' _ _ eq_refl).
      destruct (N.ltb_spec (be_txn e) r); [lia | reflexivity]. }
    rewrite V. destruct (maxd None (dels_of k es)) as [d|]; [|reflexivity]. specialize (DF' _ eq_refl).
    destruct (N.ltb_spec d (be_txn e)); [reflexivity | lia].
Qed.

(** ** Writing all rows and reading them back *)
Lemma fin_put_fresh sv s e : has_row s (be_key e) = false -> fin_put sv s e = Some (put_row sv s e).
Proof. unfold has_row, fin_put. destruct (aget pkey_eqb (be_key e) (m_idx s)); [intros D; discriminate D | reflexivity]. Qed.

Lemma put_row_has sv s e k : has_row (put_row sv s e) k = pkey_eqb k (be_key e) || has_row s k.
Proof.
  unfold has_row, put_row. cbn [m_idx set_idx]. destruct (pkey_eqb k (be_key e)) eqn:E.
  - apply pkey_eqb_eq in E. subst k. rewrite (aget_put_same _ pkey_eqb_eq). reflexivity.
  - rewrite (aget_put_other _ pkey_eqb_eq), (aget_del_other _ pkey_eqb_eq) by (apply pkey_neq; exact E). reflexivity.
Qed.

Definition max_txn (a : N) (es : list bev) : N := fold_left (fun a e => N.max a (be_txn e)) es a.

Lemma fin_loop_fresh sv es : forall s p last t, rinv s t -> Forall (fun e => be_kind e = DkInsert) es ->
  NoDup (map be_key es) -> Forall (fun e => has_row s (be_key e) = false) es -> fits (length (col_names (m_lay s))) es ->
  exists s', fin_loop sv s p last es = Some (s', p, max_txn last es) /\ rinv s' (top_txn t es) /\
    m_lay s' = m_lay s /\ m_sd s' = m_sd s /\ m_queue s' = m_queue s /\ m_qsize s' = m_qsize s /\ m_iffy s' = m_iffy s /\
    (forall k, view s' k = kfold (length (col_names (m_lay s))) k es (view s k)) /\ (full s -> exact_fit (length (col_names (m_lay s))) es -> full s').
Proof.
  induction es as [|e es IH]; intros s p last t R KI ND FR EF.
  { exists s. cbn. repeat (split; [solve [auto]|]). auto. }
  inversion KI as [|? ? K1 K2]; subst. inversion ND as [|? ? NI ND']; subst. inversion FR as [|? ? FR1 FR2]; subst.
  inversion EF as [|? ? EF1 EF2]; subst. assert (LE : (length (be_cells e) <= length (col_names (m_lay s)))%nat) by (apply EF1; unfold is_put; rewrite K1; discriminate).
  cbn [fin_loop]. rewrite K1, (fin_put_fresh sv s e FR1).
  destruct (put_row_ok sv s e t R) as (P1 & P2 & P3); [lia|]. cbv zeta in *.
  destruct (IH (put_row sv s e) p (N.max last (be_txn e)) _ P1 K2 ND') as (s' & E & Q1 & Q2 & Q3 & Q4 & Q5 & Q6 & Q7 & Q8).
  { apply Forall_forall. intros x Hx. rewrite put_row_has. rewrite Forall_forall in FR2. rewrite (FR2 x Hx), orb_false_r.
    destruct (pkey_eqb (be_key x) (be_key e)) eqn:EK; [|reflexivity]. apply pkey_eqb_eq in EK. exfalso. apply NI. rewrite <- EK. apply in_map. exact Hx. }
  { exact EF2. }
  exists s'. split; [exact E|]. split; [exact Q1|]. do 5 (split; [solve [auto]|]). split.
  - intros k. rewrite Q7, P2. cbn [kfold fold_left]. unfold kstep at 2. rewrite K1. reflexivity.
  - intros F X. inversion X as [|? ? X1 X2]; subst. apply Q8; [|exact X2]. apply P3; [exact F|]. apply X1. unfold is_put. rewrite K1. discriminate.
Qed.

(** lookups do not depend on the order *)
Lemma aget_in_key {V} k v (l : list (pkey * V)) : aget pkey_eqb k l = Some v -> In (k, v) l.
Proof.
  induction l as [|[x y] l IH]; cbn [aget]; [intros D; discriminate D|]. destruct (pkey_eqb k x) eqn:E.
  - apply pkey_eqb_eq in E. subst. intros Q. inversion Q; subst. left. reflexivity.
  - intros Q. right. auto.
Qed.
Lemma aget_of_in {V} k v (l : list (pkey * V)) : NoDup (akeys l) -> In (k, v) l -> aget pkey_eqb k l = Some v.
Proof.
  induction l as [|[x y] l IH]; intros ND I; [destruct I|]. cbn [aget]. change (akeys ((x, y) :: l)) with (x :: akeys l) in ND.
  inversion ND as [|? ? NI ND']; subst. destruct I as [I|I].
  - inversion I; subst. rewrite pkey_eqb_refl. reflexivity.
  - destruct (pkey_eqb k x) eqn:E; [|auto]. apply pkey_eqb_eq in E. subst. exfalso. apply NI. change x with (fst (x, v)). apply in_map. exact I.
Qed.
Lemma aget_perm_k {V} k (l l' : list (pkey * V)) : NoDup (akeys l) -> Permutation l l' -> aget pkey_eqb k l = aget pkey_eqb k l'.
Proof.
  intros ND P. assert (ND' : NoDup (akeys l')) by (apply (Permutation_NoDup (l := akeys l)); [apply Permutation_map, P | exact ND]).
  destruct (aget pkey_eqb k l) as [v|] eqn:E.
  - symmetry. apply aget_of_in; [exact ND'|]. eapply Permutation_in; [exact P|]. apply aget_in_key. exact E.
  - destruct (aget pkey_eqb k l') as [v|] eqn:E'; [|reflexivity]. exfalso. apply aget_in_key in E'.
    apply Permutation_sym in P. pose proof (Permutation_in _ P E') as I. rewrite (aget_of_in _ _ _ ND I) in E. discriminate E.
Qed.

Lemma full_events_keys s ix x : In x (map be_key (flat_map (full_event s) ix)) -> In x (akeys ix).
Proof.
  induction ix as [|ki ix IH]; [intros []|]. cbn [flat_map]. rewrite map_app, in_app_iff. intros [I|I]; [|right; auto].
  left. unfold full_event in I. destruct (nth_error (m_objs s) (snd ki)); [|destruct I]. cbn in I. destruct I as [I|[]]. exact I.
Qed.

Lemma full_events_ok s ix : NoDup (akeys ix) ->
  NoDup (map be_key (flat_map (full_event s) ix)) /\
  Forall (fun e => be_kind e = DkInsert) (flat_map (full_event s) ix) /\
  exact_fit (length (col_names (m_lay s))) (flat_map (full_event s) ix) /\
  (forall k, kfold (length (col_names (m_lay s))) k (flat_map (full_event s) ix) None =
     match aget pkey_eqb k ix with
     | Some i => match nth_error (m_objs s) i with Some o => Some (ro_rev o, row_cells (m_lay s) (ro_fields o)) | None => None end
     | None => None
     end).
Proof.
  induction ix as [|[x i] ix IH]; intros ND; [cbn; repeat (split; [constructor|]); auto|].
  change (akeys ((x, i) :: ix)) with (x :: akeys ix) in ND. inversion ND as [|? ? NI ND']; subst.
  destruct (IH ND') as (I1 & I2 & I3 & I4). cbn [flat_map]. unfold full_event at 1 3 5 7. cbn [fst snd].
  destruct (nth_error (m_objs s) i) as [o|] eqn:E.
  2: { cbn [app]. split; [exact I1|]. split; [exact I2|]. split; [exact I3|]. intros k. rewrite I4. cbn [aget].
       destruct (pkey_eqb k x) eqn:EK; [|reflexivity]. apply pkey_eqb_eq in EK. subst k. rewrite E.
       replace (aget pkey_eqb x ix) with (@None nat); [reflexivity|]. symmetry. apply (aget_none _ pkey_eqb_eq). exact NI. }
  cbn [app map]. split; [constructor; [intros I; apply NI; exact (full_events_keys _ _ _ I) | exact I1]|].
  split; [constructor; [reflexivity | exact I2]|].
  split; [constructor; [intros _; cbn [be_cells]; apply row_cells_len | exact I3]|].
  intros k. cbn [kfold fold_left aget]. rewrite (pkey_sym k x). unfold kstep at 2. cbn [be_key be_kind be_txn be_cells].
  destruct (pkey_eqb x k) eqn:EK.
  - apply pkey_eqb_eq in EK. subst k. rewrite pad_id by apply row_cells_len. rewrite E.
    apply (kfold_other _ x (flat_map (full_event s) ix)). apply Forall_forall. intros e He Q. apply NI. subst x. apply (full_events_keys s). apply in_map. exact He.
  - exact (I4 k).
Qed.

(** the largest row number *)
Definition max_rev (s : mst) : N := fold_left (fun a e => N.max a (be_txn e)) (flat_map (full_event s) (m_idx s)) 0.

Lemma max_perm l l' : Permutation l l' -> forall a, max_txn a l = max_txn a l'.
Proof.
  induction 1 as [|x l l' H IH|x y l|l l' l'' H1 IH1 H2 IH2]; intros a; unfold max_txn in *; cbn [fold_left].
  - reflexivity.
  - apply IH.
  - replace (N.max (N.max a (be_txn y)) (be_txn x)) with (N.max (N.max a (be_txn x)) (be_txn y)) by lia. reflexivity.
  - rewrite IH1. apply IH2.
Qed.

Lemma base_rinv lay ds : lay_ok lay -> Forall is_add ds -> (forall f, In (SdAdd f) ds -> In f (col_names lay)) ->
  rinv (base_of lay ds) 0 /\ full (base_of lay ds).
Proof.
  intros L A S. assert (NN : forall i o, nth_error (@nil rowobj) i = Some o -> False) by (intros [|i] o D; discriminate D).
  split; [|intros i o E; exfalso; exact (NN _ _ E)].
  constructor; cbn [m_lay m_sd m_objs m_idx base_of]; auto; try (intros i o E; exfalso; exact (NN _ _ E)).
  constructor; cbn [m_lay m_sd m_objs m_idx base_of]; auto; [constructor | intros k i D; discriminate D].
Qed.

Theorem full_restart s t ix ds : rinv s t -> Permutation ix (m_idx s) -> Forall is_add ds ->
  (forall f, In (SdAdd f) ds -> In f (col_names (m_lay s))) ->
  exists s2, apply_batches (base_of (m_lay s) ds) [full_batch ix s] = Some s2 /\
    rinv s2 (max_rev s + 1) /\ m_lay s2 = m_lay s /\ m_sd s2 = ds /\ m_dver s2 = max_rev s + 1 /\
    m_queue s2 = [] /\ m_qsize s2 = 0 /\ m_iffy s2 = false /\ full s2 /\ (forall k, view s2 k = view s k).
Proof.
  intros R P A S. destruct R as [[GL GN GR] RN RA RS RC RR].
  assert (NDX : NoDup (akeys ix)) by (apply (Permutation_NoDup (l := akeys (m_idx s))); [apply Permutation_map, Permutation_sym, P | exact GN]).
  destruct (full_events_ok s ix NDX) as (F1 & F2 & F3 & F4).
  destruct (base_rinv (m_lay s) ds GL A S) as [BR BF].
  destruct (fin_loop_fresh (ba_schema (full_batch ix s)) (flat_map (full_event s) ix) (base_of (m_lay s) ds) [] 0 0 BR F2 F1) as
    (s1 & E & Q1 & Q2 & Q3 & Q4 & Q5 & Q6 & Q7 & Q8).
  { apply Forall_forall. intros; reflexivity. } { eapply Forall_impl; [|exact F3]. intros e X Y. rewrite (X Y). apply le_n. }
  cbn [apply_batches]. unfold finish. change (ba_evs (full_batch ix s)) with (flat_map (full_event s) ix). rewrite E. cbn [fold_left].
  assert (MX : max_txn 0 (flat_map (full_event s) ix) = max_rev s).
  { unfold max_rev. apply max_perm. clear -P. induction P; cbn [flat_map]; auto.
    - apply Permutation_app_head. assumption.
    - rewrite !app_assoc. apply Permutation_app_tail, Permutation_app_comm.
    - eapply Permutation_trans; eassumption. }
  rewrite MX. eexists. split; [reflexivity|].
  assert (TT : forall es t a, t <= a + 1 -> top_txn t es <= max_txn a es + 1).
  { clear. induction es as [|e es IH]; intros t a L; [exact L|]. cbn [top_txn max_txn fold_left]. apply IH. lia. }
  split.
  { specialize (TT (flat_map (full_event s) ix) 0 0 ltac:(lia)). rewrite MX in TT. apply (rinv_mono _ _ _ Q1) in TT.
    destruct TT as [[? ? ?] ? ? ? ? ?]. constructor; cbn [m_lay m_sd m_idx m_objs set_dver]; auto. constructor; auto. }
  cbn [m_lay m_sd m_dver m_queue m_qsize m_iffy set_dver]. rewrite Q2, Q3, Q4, Q5, Q6. cbn [m_lay m_sd m_queue m_qsize m_iffy base_of].
  do 6 (split; [reflexivity|]). split.
  - intros i o H. cbn [m_objs m_lay set_dver] in *. exact (Q8 BF F3 i o H).
  - intros k. change (view (set_dver (max_rev s + 1) s1) k) with (view s1 k). rewrite Q7.
    change (m_lay (base_of (m_lay s) ds)) with (m_lay s). change (view (base_of (m_lay s) ds) k) with (@None (N * list cell)). rewrite F4.
    unfold view. rewrite (aget_perm_k k ix (m_idx s) NDX P). reflexivity.
Qed.
