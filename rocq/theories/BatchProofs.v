(** Proofs about batches, restore and the flusher. *)
From Coq Require Import List Arith NArith Lia Bool Permutation Sorted.
From Verif Require Import Bytes AMap DataModel CodecModel CodecProofs DictModel TypeModel GnsCodecModel GnsModel GnsProofs
  RowModel RowSpec RowProofs RowTable RowUpd RowAlter RowLemmas BatchModel.
Import ListNotations.
Local Open Scope N_scope.

(** * Sequential meaning of a list of events *)

Definition pad (n : nat) (cs : list cell) : list cell := cs ++ repeat CNull (n - length cs).
(** value of key [k] after one event: revision and cells *)
Definition kstep (n : nat) (k : pkey) (v : option (N * list cell)) (e : bev) : option (N * list cell) :=
  if pkey_eqb (be_key e) k then
    match be_kind e with
    | DkDelete => match v with Some (r, cs) => if r <=? be_txn e then None else v | None => None end
    | _ => Some (be_txn e, pad n (be_cells e))
    end
  else v.
Definition kfold (n : nat) (k : pkey) (es : list bev) (v : option (N * list cell)) : option (N * list cell) :=
  fold_left (kstep n k) es v.

Lemma kfold_app n k a b v : kfold n k (a ++ b) v = kfold n k b (kfold n k a v).
Proof. apply fold_left_app. Qed.
Lemma kfold_other n k es : forall v, Forall (fun e => be_key e <> k) es -> kfold n k es v = v.
Proof.
  induction es as [|e es IH]; intros v H; [reflexivity|]. inversion H; subst. cbn [kfold fold_left]. unfold kstep at 2.
  destruct (pkey_eqb (be_key e) k) eqn:E; [apply pkey_eqb_eq in E; contradiction|]. apply IH. assumption.
Qed.

Definition view (s : mst) (k : pkey) : option (N * list cell) :=
  match aget pkey_eqb k (m_idx s) with
  | Some i => match nth_error (m_objs s) i with
              | Some o => Some (ro_rev o, row_cells (m_lay s) (ro_fields o))
              | None => None
              end
  | None => None
  end.

Definition val (m : rfields) (c : bytes) : cell := match aget bseq c m with Some x => x | None => CNull end.
Lemma row_cells_val l m : row_cells l m = map (val m) (col_names l).
Proof. reflexivity. Qed.
Lemma row_cells_len l m : length (row_cells l m) = length (col_names l).
Proof. apply map_length. Qed.
Lemma pad_id n cs : length cs = n -> pad n cs = cs.
Proof. intros H. unfold pad. rewrite H, Nat.sub_diag. apply app_nil_r. Qed.

(** * ADD-only schema deltas *)

Definition is_add (d : sdelta) : Prop := match d with SdAdd _ => True | SdRem _ => False end.

Lemma aget_app_rf k (a b : rfields) : aget bseq k (a ++ b) = match aget bseq k a with Some f => Some f | None => aget bseq k b end.
Proof. induction a as [|[x y] a IH]; cbn; [reflexivity|]. destruct (bseq k x); auto. Qed.

Lemma val_insert_null m f c : val (fst (rf_insert f CNull m)) c = val m c.
Proof.
  unfold rf_insert, val. destruct (aget bseq f m) eqn:E; cbn [fst]; [reflexivity|].
  rewrite aget_app_rf. destruct (aget bseq c m) eqn:G; [reflexivity|]. cbn [aget].
  destruct (bseq c f); reflexivity.
Qed.
Lemma val_fold ds : Forall is_add ds -> forall m c, val (fold_left apply_sd ds m) c = val m c.
Proof.
  induction 1 as [|d ds H HF IH]; intros m c; [reflexivity|]. cbn [fold_left]. rewrite IH.
  destruct d; [apply val_insert_null|destruct H].
Qed.
Lemma forall_skipn {A} (P : A -> Prop) n l : Forall P l -> Forall P (skipn n l).
Proof. intros H. rewrite <- (firstn_skipn n l) in H. apply Forall_app in H. tauto. Qed.
Lemma val_resolve sd o c : Forall is_add sd -> val (ro_fields (resolve sd o)) c = val (ro_fields o) c.
Proof.
  intros H. unfold resolve. destruct (Nat.leb _ _); [reflexivity|]. cbn [ro_fields].
  apply val_fold, forall_skipn, H.
Qed.
Lemma cells_resolve sd o l : Forall is_add sd -> row_cells l (ro_fields (resolve sd o)) = row_cells l (ro_fields o).
Proof. intros H. rewrite !row_cells_val. apply map_ext. intros c. apply val_resolve, H. Qed.
Lemma resolve_rev sd o : ro_rev (resolve sd o) = ro_rev o.
Proof. unfold resolve. destruct (Nat.leb _ _); reflexivity. Qed.

Lemma fold_keys ds (names : list bytes) : (forall f, In (SdAdd f) ds -> In f names) -> Forall is_add ds ->
  forall m, incl (akeys m) names -> incl (akeys (fold_left apply_sd ds m)) names.
Proof.
  intros HN HA. induction HA as [|d ds H HF IH]; intros m HI; [exact HI|]. cbn [fold_left]. apply IH.
  - intros f Hf. apply HN. right. exact Hf.
  - destruct d; [|destruct H]. cbn [apply_sd]. unfold rf_insert. destruct (aget bseq f m); cbn [fst]; [exact HI|].
    intros x Hx. rewrite akeys_app in Hx. apply in_app_iff in Hx as [Hx|[<-|[]]]; [apply HI, Hx|].
    apply HN. left. reflexivity.
Qed.
Lemma resolve_keys sd o (names : list bytes) : (forall f, In (SdAdd f) sd -> In f names) -> Forall is_add sd ->
  incl (akeys (ro_fields o)) names -> incl (akeys (ro_fields (resolve sd o))) names.
Proof.
  intros HN HA HI. unfold resolve. destruct (Nat.leb _ _); [exact HI|]. cbn [ro_fields].
  apply fold_keys; [|apply forall_skipn, HA|exact HI].
  intros f Hf. apply HN. rewrite <- (firstn_skipn (S (ro_sv o)) sd). apply in_app_iff. right. exact Hf.
Qed.

(** * Restoring a batch *)

Lemma zip_get names : NoDup names -> forall cs acc c, (forall x, In x names -> ~ In x (akeys acc)) ->
  aget bseq c (fold_left (fun m kv => fst (rf_insert (fst kv) (snd kv) m)) (combine names cs) acc) =
  match aget bseq c acc with Some v => Some v | None => aget bseq c (combine names cs) end.
Proof.
  induction 1 as [|x names NI ND IH]; intros cs acc c HA; cbn [combine fold_left].
  { destruct (aget bseq c acc); reflexivity. }
  destruct cs as [|v cs]; cbn [fold_left combine]. { destruct (aget bseq c acc); reflexivity. }
  cbn [fst snd]. rewrite rf_insert_fresh by (apply HA; left; reflexivity). cbn [fst]. rewrite IH.
  - rewrite aget_app_rf. cbn [aget]. destruct (aget bseq c acc); [reflexivity|]. destruct (bseq c x); reflexivity.
  - intros y Hy. rewrite akeys_app. intros Hi. apply in_app_iff in Hi as [Hi|[<-|[]]]; [|contradiction].
    apply (HA y); [right; exact Hy|exact Hi].
Qed.
Lemma zip_keys names cs : incl (akeys (zip_cells names cs)) names.
Proof.
  unfold zip_cells. enough (X : forall l acc, incl (map fst l) names -> incl (akeys acc) names ->
    incl (akeys (fold_left (fun m kv => fst (rf_insert (fst kv) (snd kv) m)) l acc)) names).
  { apply X; [|intros ? []]. clear. revert cs. induction names as [|x names IH]; intros [|c cs]; cbn; try solve [intros ? []].
    intros y [<-|Hy]; [left; reflexivity|right; apply (IH cs), Hy]. }
  induction l as [|[a b] l IH]; intros acc H1 H2; [exact H2|]. cbn [fold_left]. apply IH.
  - intros y Hy. apply H1. right. exact Hy.
  - cbn [fst snd]. unfold rf_insert. destruct (aget bseq a acc); cbn [fst]; [exact H2|].
    intros y Hy. rewrite akeys_app in Hy. apply in_app_iff in Hy as [Hy|[<-|[]]]; [apply H2, Hy|apply H1; left; reflexivity].
Qed.
Lemma zip_nd names cs : NoDup names -> NoDup (akeys (zip_cells names cs)).
Proof.
  unfold zip_cells. intros _. enough (X : forall l acc, NoDup (akeys acc) ->
    NoDup (akeys (fold_left (fun m kv => fst (rf_insert (fst kv) (snd kv) m)) l acc))) by (apply X; constructor).
  induction l as [|[a b] l IH]; intros acc H; [exact H|]. cbn [fold_left fst snd]. apply IH.
  unfold rf_insert. destruct (aget bseq a acc) eqn:G; cbn [fst]; [exact H|].
  rewrite akeys_app. apply NoDup_app_one; [exact H|]. apply (aget_none _ bseq_eq). exact G.
Qed.

Lemma zip_vals names : NoDup names -> forall cs, (length cs <= length names)%nat ->
  map (val (zip_cells names cs)) names = pad (length names) cs.
Proof.
  intros ND cs L.
  assert (X : map (val (zip_cells names cs)) names = map (val (combine names cs)) names).
  { apply map_ext. intros c. unfold val, zip_cells. rewrite zip_get by (auto; intros ? ? []). reflexivity. }
  rewrite X. clear X. revert cs L. induction ND as [|x names NI ND IH]; intros cs L; cbn [map].
  { destruct cs; [reflexivity|cbn in L; lia]. }
  destruct cs as [|c cs]; cbn [combine].
  - unfold pad. cbn [app length Nat.sub repeat]. f_equal. clear. induction names; cbn [map repeat length]; [reflexivity|]. f_equal. exact IHnames.
  - cbn [length] in *. specialize (IH cs ltac:(lia)). unfold pad in *. cbn [app length Nat.sub].
    unfold val at 1. cbn [aget]. rewrite bseq_refl. f_equal. rewrite <- IH. apply map_ext_in. intros y Hy.
    unfold val. cbn [aget]. destruct (bseq y x) eqn:E; [apply bseq_eq in E; subst; contradiction|reflexivity].
Qed.

Lemma col_names_nd l : lay_ok l -> NoDup (col_names l).
Proof. intros (H & _). unfold col_names. apply NoDup_filter. exact H. Qed.

(** what a restored state must satisfy before the next event *)
Record rinv (s : mst) (t : N) : Prop := {
  ri_g : ginv s;
  ri_nd : rows_nd s;
  ri_add : Forall is_add (m_sd s);
  ri_sdn : forall f, In (SdAdd f) (m_sd s) -> In f (col_names (m_lay s));
  ri_cols : forall i o, nth_error (m_objs s) i = Some o -> incl (akeys (ro_fields o)) (col_names (m_lay s));
  ri_rev : forall i o, nth_error (m_objs s) i = Some o -> ro_rev o < t
}.

Lemma rinv_mono s t t' : rinv s t -> t <= t' -> rinv s t'.
Proof. intros [] H. constructor; auto. intros i o E. specialize (ri_rev0 i o E). lia. Qed.

Lemma view_put sv s e t : rinv s t -> t <= be_txn e -> (length (be_cells e) <= length (col_names (m_lay s)))%nat ->
  exists s', fin_put sv s e = Some s' /\ rinv s' (be_txn e + 1) /\ m_lay s' = m_lay s /\ m_sd s' = m_sd s /\
    m_queue s' = m_queue s /\ m_qsize s' = m_qsize s /\ m_iffy s' = m_iffy s /\
    (forall k, view s' k = if pkey_eqb (be_key e) k then Some (be_txn e, pad (length (col_names (m_lay s))) (be_cells e)) else view s k) /\
    (m_sd s = [] -> (forall i o, nth_error (m_objs s) i = Some o -> incl (col_names (m_lay s)) (akeys (ro_fields o))) ->
      length (be_cells e) = length (col_names (m_lay s)) ->
      (forall i o, nth_error (m_objs s') i = Some o -> incl (col_names (m_lay s)) (akeys (ro_fields o)))).
Proof.
  intros [[GL GN GR] RN RA RS RC RR] LT LN. unfold fin_put.
  assert (OK : match aget pkey_eqb (be_key e) (m_idx s) with
            | None => true
            | Some i => match nth_error (m_objs s) i with
                        | None => true
                        | Some o => (ro_rev o =? 0) || (ro_rev o <? be_txn e)
                        end
            end = true).
  { destruct (aget pkey_eqb (be_key e) (m_idx s)) as [i|]; [|reflexivity].
    destruct (nth_error (m_objs s) i) as [o|] eqn:E; [|reflexivity]. apply orb_true_iff. right. apply N.ltb_lt.
    specialize (RR i o E). lia. }
  rewrite OK. cbn [negb]. eexists. split; [reflexivity|]. cbn [m_lay m_sd m_queue m_qsize m_iffy set_idx set_objs].
  set (row := mk_row (be_key e) (zip_cells (col_names (m_lay s)) (be_cells e)) (be_txn e) (N.to_nat sv)).
  pose proof (col_names_nd _ GL) as ND.
  assert (NEW : forall i o, nth_error (m_objs s ++ [resolve (m_sd s) row]) i = Some o ->
            (nth_error (m_objs s) i = Some o) \/ (i = length (m_objs s) /\ o = resolve (m_sd s) row)).
  { intros i o E. destruct (Nat.lt_ge_cases i (length (m_objs s))) as [L|L].
    - rewrite nth_error_app1 in E by exact L. auto.
    - rewrite nth_error_app2 in E by exact L. destruct (i - length (m_objs s))%nat as [|[|?]] eqn:D; try discriminate.
      cbn in E. inversion E. right. split; [lia|reflexivity]. }
  assert (RK : ro_key (resolve (m_sd s) row) = be_key e) by (rewrite resolve_key; reflexivity).
  assert (RV : ro_rev (resolve (m_sd s) row) = be_txn e) by (rewrite resolve_rev; reflexivity).
  split; [|split; [reflexivity|split; [reflexivity|split; [reflexivity|split; [reflexivity|split; [reflexivity|split]]]]]].
  - constructor; cbn [m_lay m_sd m_queue m_objs m_idx set_idx set_objs].
    + constructor; cbn [m_lay m_idx m_objs set_idx set_objs]; [exact GL| |].
      * apply (nodup_put _ pkey_eqb_eq). apply (nodup_del _ pkey_eqb_eq). exact GN.
      * intros k i G. destruct (pkey_eqb k (be_key e)) eqn:E.
        -- apply pkey_eqb_eq in E. subst k. rewrite (aget_put_same _ pkey_eqb_eq) in G. inversion G; subst.
           rewrite nth_error_app2, Nat.sub_diag by lia. cbn [nth_error]. eexists. split; [reflexivity|exact RK].
        -- assert (NK : k <> be_key e) by (intros ->; rewrite pkey_eqb_refl in E; discriminate).
           rewrite (aget_put_other _ pkey_eqb_eq), (aget_del_other _ pkey_eqb_eq) in G by exact NK.
           destruct (GR _ _ G) as (o & E1 & E2). exists o. split; [|exact E2].
           rewrite nth_error_app1; [exact E1|]. apply nth_error_Some. congruence.
    + intros i o E. apply NEW in E as [E|[_ ->]]; [eapply RN; eauto|]. apply resolve_nd. apply zip_nd. exact ND.
    + exact RA.
    + exact RS.
    + intros i o E. apply NEW in E as [E|[_ ->]]; [eapply RC; eauto|]. apply resolve_keys; auto. apply zip_keys.
    + intros i o E. apply NEW in E as [E|[_ ->]]; [specialize (RR i o E); lia|]. lia.
  - intros k. unfold view. cbn [m_lay m_idx m_objs set_idx set_objs].
    destruct (pkey_eqb (be_key e) k) eqn:E.
    + apply pkey_eqb_eq in E. subst k. rewrite (aget_put_same _ pkey_eqb_eq), nth_error_app2, Nat.sub_diag by lia.
      cbn [nth_error]. rewrite RV, cells_resolve by exact RA. f_equal. f_equal. apply zip_vals; auto.
    + assert (NK : k <> be_key e) by (intros ->; rewrite pkey_eqb_refl in E; discriminate).
      rewrite (aget_put_other _ pkey_eqb_eq), (aget_del_other _ pkey_eqb_eq) by exact NK.
      destruct (aget pkey_eqb k (m_idx s)) as [i|] eqn:G; [|reflexivity].
      destruct (GR _ _ G) as (o & E1 & E2). rewrite nth_error_app1; [reflexivity|]. apply nth_error_Some. congruence.
  - intros SD FU LE i o E. apply NEW in E as [E|[_ ->]]; [eapply FU; eauto|].
    rewrite SD. rewrite resolve_nil. cbn [ro_fields row]. intros c Hc.
    destruct (in_dec (list_eq_dec Byte.byte_eq_dec) c (akeys (zip_cells (col_names (m_lay s)) (be_cells e)))) as [I|I]; [exact I|].
    exfalso. apply (aget_none _ bseq_eq) in I. unfold zip_cells in I. rewrite zip_get in I by (auto; intros ? ? []).
    cbn [aget] in I. apply (aget_none _ bseq_eq) in I. apply I. rewrite keys_combine by exact LE. exact Hc.
Qed.

(** * Increasing numbers *)

(** every number is at least the bound, and each raises the bound above itself *)
Fixpoint incr (t : N) (l : list N) : Prop := match l with [] => True | x :: l' => t <= x /\ incr (x + 1) l' end.
Fixpoint bound (t : N) (l : list N) : N := match l with [] => t | x :: l' => bound (x + 1) l' end.

Lemma incr_app a : forall t b, incr t (a ++ b) <-> incr t a /\ incr (bound t a) b.
Proof. induction a as [|x a IH]; intros t b; cbn [app incr bound]; [tauto|]. rewrite IH. tauto. Qed.
Lemma bound_app a : forall t b, bound t (a ++ b) = bound (bound t a) b.
Proof. induction a as [|x a IH]; intros t b; cbn [app bound]; auto. Qed.
Lemma bound_ge l : forall t, incr t l -> t <= bound t l.
Proof. induction l as [|x l IH]; intros t; cbn [incr bound]; [lia|]. intros [H1 H2]. specialize (IH _ H2). lia. Qed.
Lemma incr_mono l t t' : t' <= t -> incr t l -> incr t' l.
Proof. destruct l; cbn [incr]; intuition lia. Qed.
Lemma bound_ne l : forall t t', l <> [] -> bound t l = bound t' l.
Proof. destruct l; [congruence|reflexivity]. Qed.
Lemma incr_lt l : forall t, incr t l -> Forall (fun x => t <= x < bound t l) l.
Proof.
  induction l as [|x l IH]; intros t; [constructor|]. cbn [incr bound]. intros [H1 H2].
  pose proof (bound_ge _ _ H2). constructor; [lia|].
  specialize (IH _ H2). rewrite Forall_forall in *. intros y Hy. specialize (IH y Hy). lia.
Qed.
Lemma incr_sorted l : forall t, incr t l -> StronglySorted N.lt l.
Proof.
  induction l as [|x l IH]; intros t; cbn [incr]; [constructor|]. intros [H1 H2]. constructor; [eauto|].
  apply incr_lt in H2. rewrite Forall_forall in *. intros y Hy. specialize (H2 y Hy). lia.
Qed.

Definition txns (es : list bev) : list N := map be_txn es.

(** * [finish] *)

Definition mview (s : mst) (p : list (pkey * N)) (k : pkey) : option (N * list cell) :=
  match view s k with
  | Some (r, cs) => match aget pkey_eqb k p with
                    | Some t => if t <? r then Some (r, cs) else None
                    | None => Some (r, cs)
                    end
  | None => None
  end.

Definition full (s : mst) : Prop :=
  forall i o, nth_error (m_objs s) i = Some o -> incl (col_names (m_lay s)) (akeys (ro_fields o)).
Definition is_put (e : bev) : Prop := be_kind e <> DkDelete.
Definition fits (n : nat) (es : list bev) : Prop := Forall (fun e => is_put e -> (length (be_cells e) <= n)%nat) es.
Definition exact_fit (n : nat) (es : list bev) : Prop := Forall (fun e => is_put e -> length (be_cells e) = n) es.

Definition maxp (p : list (pkey * N)) (a : N) : N := fold_left (fun a kt => N.max a (snd kt)) p a.
Lemma maxp_le p : forall a v, a <= v -> Forall (fun kt => snd kt <= v) p -> maxp p a <= v.
Proof. induction p as [|x p IH]; intros a v H F; cbn [maxp fold_left]; [exact H|]. inversion F; subst. apply IH; [lia|assumption]. Qed.
Lemma maxp_acc p : forall a, a <= maxp p a.
Proof. induction p as [|x p IH]; intros a; cbn [maxp fold_left]; [lia|]. specialize (IH (N.max a (snd x))). unfold maxp in *. lia. Qed.
Lemma maxp_in p : forall a kt, In kt p -> snd kt <= maxp p a.
Proof.
  induction p as [|x p IH]; intros a kt []; cbn [maxp fold_left].
  - subst. pose proof (maxp_acc p (N.max a (snd kt))). unfold maxp in *. lia.
  - apply IH. assumption.
Qed.
Lemma maxp_acc_max p a v : Forall (fun kt => snd kt <= v) p -> a <= v -> maxp p (N.max a v) = v.
Proof. intros F H. pose proof (maxp_le p (N.max a v) v ltac:(lia) F). pose proof (maxp_acc p (N.max a v)). lia. Qed.

Lemma aput_snd (P : N -> Prop) k v p : Forall (fun kt : pkey * N => P (snd kt)) p -> P v ->
  Forall (fun kt => P (snd kt)) (aput pkey_eqb k v p).
Proof.
  induction 1 as [|[x y] p H F IH]; intros HV; cbn [aput]; [constructor; [exact HV|constructor]|].
  destruct (pkey_eqb k x); constructor; auto.
Qed.
Lemma aget_in_p k (p : list (pkey * N)) v : aget pkey_eqb k p = Some v -> exists k', In (k', v) p.
Proof.
  induction p as [|[x y] p IH]; cbn [aget]; [discriminate|]. destruct (pkey_eqb k x).
  - intros H. inversion H; subst. exists x. left. reflexivity.
  - intros H. destruct (IH H) as [k' I]. exists k'. right. exact I.
Qed.

Lemma pkey_neq a b : pkey_eqb a b = false -> a <> b.
Proof. intros H ->. rewrite pkey_eqb_refl in H. discriminate. Qed.
Lemma pkey_sym a b : pkey_eqb a b = pkey_eqb b a.
Proof.
  destruct (pkey_eqb a b) eqn:E, (pkey_eqb b a) eqn:F; try reflexivity.
  - apply pkey_eqb_eq in E. subst. rewrite pkey_eqb_refl in F. discriminate.
  - apply pkey_eqb_eq in F. subst. rewrite pkey_eqb_refl in E. discriminate.
Qed.

Lemma fin_loop_ok sv es : forall s p last t, rinv s t -> Forall (fun kt => snd kt < t) p -> NoDup (akeys p) ->
  incr t (txns es) -> fits (length (col_names (m_lay s))) es ->
  exists s' p' last', fin_loop sv s p last es = Some (s', p', last') /\ rinv s' (bound t (txns es)) /\
    m_lay s' = m_lay s /\ m_sd s' = m_sd s /\ m_queue s' = m_queue s /\ m_qsize s' = m_qsize s /\ m_iffy s' = m_iffy s /\
    NoDup (akeys p') /\ Forall (fun kt => snd kt < bound t (txns es)) p' /\
    (forall k, mview s' p' k = kfold (length (col_names (m_lay s))) k es (mview s p k)) /\
    (maxp p last <= t -> es <> [] -> maxp p' last' + 1 = bound t (txns es)) /\
    (es = [] -> p' = p /\ last' = last) /\
    (m_sd s = [] -> full s -> exact_fit (length (col_names (m_lay s))) es -> full s').
Proof.
  induction es as [|e es IH]; intros s p last t RI PB ND IN FI.
  { exists s, p, last. cbn [fin_loop txns map bound kfold fold_left]. repeat (split; [solve [auto]|]). split; [congruence|auto]. }
  cbn [fin_loop txns map incr] in *. destruct IN as [IN1 IN2]. inversion FI as [|? ? FI1 FI2]; subst.
  set (n := length (col_names (m_lay s))) in *.
  assert (PUT : be_kind e <> DkDelete ->
     exists s' p' last', match fin_put sv s e with None => None | Some s' => fin_loop sv s' p (N.max last (be_txn e)) es end = Some (s', p', last') /\
       rinv s' (bound t (txns (e :: es))) /\
    m_lay s' = m_lay s /\ m_sd s' = m_sd s /\ m_queue s' = m_queue s /\ m_qsize s' = m_qsize s /\ m_iffy s' = m_iffy s /\
    NoDup (akeys p') /\ Forall (fun kt => snd kt < bound t (txns (e :: es))) p' /\
    (forall k, mview s' p' k = kfold n k (e :: es) (mview s p k)) /\
    (maxp p last <= t -> e :: es <> [] -> maxp p' last' + 1 = bound t (txns (e :: es))) /\
    (e :: es = [] -> p' = p /\ last' = last) /\
    (m_sd s = [] -> full s -> exact_fit n (e :: es) -> full s')).
  { intros NK.
    destruct (view_put sv s e t RI IN1 (FI1 NK)) as (s1 & -> & RI1 & L1 & SD1 & Q1 & QS1 & IF1 & V1 & FU1).
    destruct (IH s1 p (N.max last (be_txn e)) (be_txn e + 1) RI1) as (s' & p' & l' & E & RI' & L' & SD' & Q' & QS' & IF' & ND' & PB' & V' & MX & NE & FU').
    { eapply Forall_impl; [|exact PB]. cbn. intros. lia. }
    { exact ND. } { exact IN2. } { rewrite L1. exact FI2. }
    exists s', p', l'. split; [exact E|]. cbn [txns map bound].
    repeat (split; [solve [auto|congruence]|]). split; [|split; [|split; [discriminate|]]].
    - intros k. rewrite V', L1. fold n. change (kfold n k (e :: es) (mview s p k)) with (kfold n k es (kstep n k (mview s p k) e)).
      enough (X : mview s1 p k = kstep n k (mview s p k) e) by (rewrite X; reflexivity). unfold mview. rewrite V1. unfold kstep.
      destruct (pkey_eqb (be_key e) k) eqn:EK; [|reflexivity]. fold n.
      destruct (aget pkey_eqb k p) as [t0|] eqn:G.
      + destruct (aget_in_p _ _ _ G) as [k' I]. rewrite Forall_forall in PB. specialize (PB _ I). cbn in PB.
        destruct (N.ltb_spec t0 (be_txn e)); [|lia]. destruct (be_kind e); first [reflexivity | congruence].
      + destruct (be_kind e); first [reflexivity | congruence].
    - intros M _. assert (PB2 : Forall (fun kt => snd kt <= be_txn e) p) by (eapply Forall_impl; [|exact PB]; cbn; intros; lia).
      pose proof (maxp_acc p last).
      destruct es as [|e2 es2].
      + destruct (NE eq_refl) as [-> ->]. cbn [txns map bound]. rewrite maxp_acc_max; [reflexivity|exact PB2|lia].
      + apply MX; [|discriminate]. rewrite maxp_acc_max; [lia|exact PB2|lia].
    - intros SD FU EF. inversion EF; subst. apply FU'; [congruence| |rewrite L1; assumption].
      intros i o E1. rewrite L1. eapply (FU1 SD FU); [|exact E1]. apply H1. exact NK. }
  destruct (be_kind e) eqn:EK; try (apply PUT; discriminate). clear PUT.
  assert (FD : fin_del p e = aput pkey_eqb (be_key e) (be_txn e) p).
  { unfold fin_del. destruct (aget pkey_eqb (be_key e) p) as [t0|] eqn:G; [|reflexivity].
    destruct (aget_in_p _ _ _ G) as [k' I]. rewrite Forall_forall in PB. specialize (PB _ I). cbn in PB.
    destruct (N.ltb_spec (be_txn e) t0); [lia|reflexivity]. }
  rewrite FD.
  assert (PB1 : Forall (fun kt => snd kt < be_txn e + 1) (aput pkey_eqb (be_key e) (be_txn e) p)).
  { apply (aput_snd (fun x => x < be_txn e + 1)); [|lia]. eapply Forall_impl; [|exact PB]. cbn. intros. lia. }
  destruct (IH s (aput pkey_eqb (be_key e) (be_txn e) p) last (be_txn e + 1)) as (s' & p' & l' & E & RI' & L' & SD' & Q' & QS' & IF' & ND' & PB' & V' & MX & NE & FU').
  { eapply rinv_mono; [exact RI|lia]. } { exact PB1. }
  { apply (nodup_put _ pkey_eqb_eq). exact ND. } { exact IN2. } { exact FI2. }
  exists s', p', l'. split; [exact E|]. cbn [txns map bound].
  repeat (split; [solve [auto]|]). split; [|split; [|split; [discriminate|]]].
  - intros k. rewrite V'. fold n. change (kfold n k (e :: es) (mview s p k)) with (kfold n k es (kstep n k (mview s p k) e)).
    enough (X : mview s (aput pkey_eqb (be_key e) (be_txn e) p) k = kstep n k (mview s p k) e) by (rewrite X; reflexivity).
    unfold mview, kstep. rewrite EK.
    destruct (pkey_eqb (be_key e) k) eqn:EQ.
    + apply pkey_eqb_eq in EQ. subst k. rewrite (aget_put_same _ pkey_eqb_eq).
      unfold view. destruct (aget pkey_eqb (be_key e) (m_idx s)) as [i|]; [|reflexivity].
      destruct (nth_error (m_objs s) i) as [o|] eqn:EO; [|reflexivity].
      pose proof (ri_rev _ _ RI _ _ EO) as RV. destruct (N.ltb_spec (be_txn e) (ro_rev o)); [lia|].
      destruct (aget pkey_eqb (be_key e) p) as [t0|].
      * destruct (t0 <? ro_rev o); [|reflexivity]. destruct (N.leb_spec (ro_rev o) (be_txn e)); [reflexivity|lia].
      * destruct (N.leb_spec (ro_rev o) (be_txn e)); [reflexivity|lia].
    + rewrite (aget_put_other _ pkey_eqb_eq); [reflexivity|]. intros ->. rewrite pkey_eqb_refl in EQ. discriminate.
  - intros M _.
    assert (MP : maxp (aput pkey_eqb (be_key e) (be_txn e) p) last = be_txn e).
    { pose proof (maxp_acc p last). apply N.le_antisymm.
      - apply maxp_le; [lia|]. apply aput_snd with (P := fun x => x <= be_txn e); [|lia].
        eapply Forall_impl; [|exact PB]. cbn. intros. lia.
      - pose proof (aget_put_same _ pkey_eqb_eq (be_key e) (be_txn e) p) as G. destruct (aget_in_p _ _ _ G) as [k' I].
        apply (maxp_in _ last) in I. exact I. }
    destruct es as [|e2 es2].
    + destruct (NE eq_refl) as [-> ->]. cbn [txns map bound]. rewrite MP. reflexivity.
    + apply MX; [|discriminate]. rewrite MP. lia.
  - intros SD FU EF. inversion EF; subst. apply FU'; auto.
Qed.

Lemma fin_drop_view s kt k : ginv s -> view (fin_drop s kt) k =
  if pkey_eqb (fst kt) k then match view s k with Some (r, cs) => if snd kt <? r then Some (r, cs) else None | None => None end else view s k.
Proof.
  intros G. unfold fin_drop. destruct (pkey_eqb (fst kt) k) eqn:E.
  - apply pkey_eqb_eq in E. subst k. unfold view at 2. destruct (aget pkey_eqb (fst kt) (m_idx s)) as [i|] eqn:GI; [|unfold view; rewrite GI; reflexivity].
    destruct (nth_error (m_objs s) i) as [o|] eqn:EO; [|unfold view; rewrite GI, EO; reflexivity].
    destruct (snd kt <? ro_rev o); [unfold view; rewrite GI, EO; reflexivity|].
    unfold view. cbn [m_idx set_idx]. rewrite aget_del_same. reflexivity.
  - assert (NK : k <> fst kt) by (intros ->; rewrite pkey_eqb_refl in E; discriminate).
    destruct (aget pkey_eqb (fst kt) (m_idx s)) as [i|] eqn:GI; [|reflexivity].
    destruct (nth_error (m_objs s) i) as [o|] eqn:EO; [|reflexivity].
    destruct (snd kt <? ro_rev o); [reflexivity|].
    unfold view. cbn [m_idx m_objs m_lay set_idx]. rewrite (aget_del_other _ pkey_eqb_eq) by exact NK. reflexivity.
Qed.
Lemma fin_drop_same s kt : m_lay (fin_drop s kt) = m_lay s /\ m_sd (fin_drop s kt) = m_sd s /\
  m_objs (fin_drop s kt) = m_objs s /\ m_queue (fin_drop s kt) = m_queue s /\ m_qsize (fin_drop s kt) = m_qsize s /\
  m_iffy (fin_drop s kt) = m_iffy s.
Proof.
  unfold fin_drop. destruct (aget pkey_eqb (fst kt) (m_idx s)) as [i|]; [|auto 8].
  destruct (nth_error (m_objs s) i) as [o|]; [|auto 8]. destruct (snd kt <? ro_rev o); auto 8.
Qed.
Lemma fin_drop_rinv s kt t : rinv s t -> rinv (fin_drop s kt) t.
Proof.
  intros R. unfold fin_drop. destruct (aget pkey_eqb (fst kt) (m_idx s)) as [i|] eqn:GI; [|exact R].
  destruct (nth_error (m_objs s) i) as [o|] eqn:EO; [|exact R]. destruct (snd kt <? ro_rev o); [exact R|].
  destruct R as [[GL GN GR] RN RA RS RC RR]. constructor; cbn [m_lay m_sd m_idx m_objs set_idx]; auto.
  constructor; cbn [m_lay m_idx m_objs set_idx]; auto.
  - apply (nodup_del _ pkey_eqb_eq). exact GN.
  - intros k j G. destruct (pkey_eqb (fst kt) k) eqn:E.
    + apply pkey_eqb_eq in E. subst k. rewrite aget_del_same in G. discriminate.
    + apply GR. rewrite (aget_del_other _ pkey_eqb_eq) in G; [exact G|]. intros ->. rewrite pkey_eqb_refl in E. discriminate.
Qed.

Lemma fin_drops p : forall s t, rinv s t -> NoDup (akeys p) ->
  let s' := fold_left fin_drop p s in
  rinv s' t /\ m_lay s' = m_lay s /\ m_sd s' = m_sd s /\ m_objs s' = m_objs s /\ m_queue s' = m_queue s /\
  m_qsize s' = m_qsize s /\ m_iffy s' = m_iffy s /\ (forall k, view s' k = mview s p k).
Proof.
  induction p as [|kt p IH]; intros s t R ND; cbn [fold_left].
  { repeat (split; [solve [auto]|]). intros k. unfold mview. cbn [aget]. destruct (view s k) as [[r cs]|]; reflexivity. }
  cbn [akeys map] in ND. inversion ND as [|? ? NI ND2]; subst.
  destruct (IH (fin_drop s kt) t (fin_drop_rinv _ _ _ R) ND2) as (R' & L & SD & O & Q & QS & IF & V).
  destruct (fin_drop_same s kt) as (L1 & SD1 & O1 & Q1 & QS1 & IF1). cbv zeta.
  repeat (split; [solve [auto|congruence]|]).
  intros k. rewrite V. unfold mview. rewrite fin_drop_view by (destruct R; assumption). destruct kt as [k0 t0]. cbn [fst snd aget].
  rewrite (pkey_sym k k0). destruct (pkey_eqb k0 k) eqn:E; [|reflexivity]. apply pkey_eqb_eq in E. subst k0.
  assert (G : aget pkey_eqb k p = None) by (apply (aget_none _ pkey_eqb_eq); exact NI). rewrite G.
  destruct (view s k) as [[r cs]|]; [|reflexivity]. destruct (t0 <? r); reflexivity.
Qed.

Lemma finish_ok s b t : rinv s t -> incr t (txns (ba_evs b)) -> fits (length (col_names (m_lay s))) (ba_evs b) ->
  exists s', finish s b = Some s' /\ rinv s' (bound t (txns (ba_evs b))) /\
    m_lay s' = m_lay s /\ m_sd s' = m_sd s /\ m_queue s' = m_queue s /\ m_qsize s' = m_qsize s /\ m_iffy s' = m_iffy s /\
    (forall k, view s' k = kfold (length (col_names (m_lay s))) k (ba_evs b) (view s k)) /\
    m_dver s' = (match ba_evs b with [] => 1 | _ => bound t (txns (ba_evs b)) end) /\
    (m_sd s = [] -> full s -> exact_fit (length (col_names (m_lay s))) (ba_evs b) -> full s').
Proof.
  intros R IN FI. unfold finish.
  destruct (fin_loop_ok (ba_schema b) (ba_evs b) s [] 0 t R (Forall_nil _) (NoDup_nil _) IN FI)
    as (s1 & p & l & -> & R1 & L1 & SD1 & Q1 & QS1 & IF1 & ND1 & PB1 & V1 & MX & NE & FU).
  destruct (fin_drops p s1 _ R1 ND1) as (R2 & L2 & SD2 & O2 & Q2 & QS2 & IF2 & V2). cbv zeta in *.
  eexists. split; [reflexivity|]. cbn [m_lay m_sd m_queue m_qsize m_iffy m_dver set_dver].
  split. { destruct R2 as [[? ? ?] ? ? ? ? ?]. constructor; cbn [m_lay m_sd m_idx m_objs set_dver]; auto. constructor; auto. }
  repeat (split; [solve [auto|congruence]|]). split; [|split].
  - intros k. change (view (fold_left fin_drop p s1) k = kfold (length (col_names (m_lay s))) k (ba_evs b) (view s k)).
    rewrite V2, V1. f_equal. unfold mview. cbn [aget]. destruct (view s k) as [[? ?]|]; reflexivity.
  - destruct (ba_evs b) eqn:EB.
    + destruct (NE eq_refl) as [-> ->]. reflexivity.
    + apply MX; [cbn; lia|discriminate].
  - intros SD FU0 EF. specialize (FU SD FU0 EF). intros i o E. cbn [m_objs m_lay set_dver] in *. rewrite O2 in E. rewrite L2. eapply FU. exact E.
Qed.

Definition evs_of (bs : list batch) : list bev := concat (map ba_evs bs).

Lemma apply_batches_app a b : forall s, apply_batches s (a ++ b) = match apply_batches s a with Some s' => apply_batches s' b | None => None end.
Proof. induction a as [|x a IH]; intros s; [reflexivity|]. cbn [app apply_batches]. destruct (finish s x); [apply IH|reflexivity]. Qed.
Lemma apply_batches_ok bs : forall s t, rinv s t -> incr t (txns (evs_of bs)) -> fits (length (col_names (m_lay s))) (evs_of bs) ->
  exists s', apply_batches s bs = Some s' /\ rinv s' (bound t (txns (evs_of bs))) /\
    m_lay s' = m_lay s /\ m_sd s' = m_sd s /\ m_queue s' = m_queue s /\ m_qsize s' = m_qsize s /\ m_iffy s' = m_iffy s /\
    (forall k, view s' k = kfold (length (col_names (m_lay s))) k (evs_of bs) (view s k)) /\
    (m_sd s = [] -> full s -> exact_fit (length (col_names (m_lay s))) (evs_of bs) -> full s') /\
    (forall bs' b, bs = bs' ++ [b] -> m_dver s' = match ba_evs b with [] => 1 | _ => bound t (txns (evs_of bs)) end) /\
    (bs = [] -> m_dver s' = m_dver s).
Proof.
  induction bs as [|b bs IH]; intros s t R IN FI; cbn [apply_batches].
  { exists s. cbn [evs_of map concat txns bound kfold fold_left]. repeat (split; [solve [auto]|]). split; [|auto].
    intros [|? ?] b' E; discriminate. }
  cbn [evs_of map concat] in *. unfold txns in *. rewrite map_app in *. apply incr_app in IN as [IN1 IN2].
  apply Forall_app in FI as [FI1 FI2].
  destruct (finish_ok s b t R IN1 FI1) as (s1 & -> & R1 & L1 & SD1 & Q1 & QS1 & IF1 & V1 & DV1 & FU1).
  destruct (IH s1 _ R1 IN2) as (s2 & -> & R2 & L2 & SD2 & Q2 & QS2 & IF2 & V2 & FU2 & DV2 & NE).
  { rewrite L1. exact FI2. }
  exists s2. split; [reflexivity|]. rewrite bound_app. fold (evs_of bs).
  repeat (split; [solve [auto|congruence]|]). split; [|split; [|split; [|discriminate]]].
  - intros k. rewrite V2, V1, L1, kfold_app. reflexivity.
  - intros SD FU EF. apply Forall_app in EF as [EF1 EF2]. apply FU2; [congruence| |rewrite L1; exact EF2]. auto.
  - intros bs' b' E. destruct bs' as [|b0 bs'].
    + cbn in E. inversion E; subst. rewrite (NE eq_refl), DV1. reflexivity.
    + cbn in E. inversion E; subst. rewrite (DV2 bs' b' eq_refl). reflexivity.
Qed.

(** * The invariant of the running model *)

(** the event a queued change stands for, if it is not stale *)
Definition pend1 (m : mst) (d : ddelta) : list bev :=
  match nth_error (m_objs m) (dd_row d) with
  | None => []
  | Some o =>
      match dd_kind d with
      | DkDelete => [mk_bev DkDelete (dd_ver d) (ro_key o) []]
      | kd => if dd_ver d <? ro_rev o then [] else [mk_bev kd (dd_ver d) (ro_key o) (row_cells (m_lay m) (ro_fields o))]
      end
  end.
Definition pend (m : mst) : list bev := flat_map (pend1 m) (m_queue m).

Definition flying (s : bst) : list bev := match b_fl s with Some f => fl_evs f | None => [] end.
Definition written (s : bst) : list bev := evs_of (b_file s) ++ flying s.
Definition ncols (m : mst) : nat := length (col_names (m_lay m)).
Definition sumN (l : list N) : N := fold_right N.add 0 l.
Definition claimed (s : bst) : N :=
  sumN (b_tasks s) + match b_fl s with Some f => fl_want f - fl_i f | None => 0 end.

(** the last batch of the file holds a change, or no batch does *)
Definition tail_live (bs : list batch) : Prop :=
  evs_of bs = [] \/ exists l b, bs = l ++ [b] /\ ba_evs b <> [].

Lemma rinv_reload m t : rinv m t -> rinv (reload_base m) 0.
Proof.
  intros [[GL GN GR] RN RA RS RC RR]. constructor; cbn [m_lay m_sd m_objs m_idx reload_base]; auto.
  - constructor; cbn [m_lay m_sd m_objs m_idx reload_base]; auto; [constructor|]. intros k i G. discriminate.
  - intros i o E. destruct i; discriminate.
  - intros i o E. destruct i; discriminate.
  - intros i o E. destruct i; discriminate.
Qed.

(** What a file may begin with: batches this server did not write itself (none for a model created by it;
    the batch written by an upgrade otherwise), with the first change number used after them. *)
Record past : Type := mk_past {
  pa_bs : list batch;
  pa_t : N;
  pa_ok : forall m t, rinv m t -> fits (ncols m) (evs_of pa_bs) ->
    exists m0, apply_batches (reload_base m) pa_bs = Some m0 /\ rinv m0 pa_t /\ m_lay m0 = m_lay m /\ m_sd m0 = m_sd m /\
      m_queue m0 = [] /\ m_qsize m0 = 0 /\ m_iffy m0 = false /\
      (forall k, view m0 k = kfold (ncols m) k (evs_of pa_bs) None) /\
      (m_sd m = [] -> exact_fit (ncols m) (evs_of pa_bs) -> full m0) /\ (tail_live pa_bs -> pa_t <= m_dver m0);
  pa_e : evs_of pa_bs = [] -> pa_t <= 1
}.
Existing Class past.
Lemma no_past_ok : forall m t, rinv m t -> fits (ncols m) (evs_of []) ->
    exists m0, apply_batches (reload_base m) [] = Some m0 /\ rinv m0 0 /\ m_lay m0 = m_lay m /\ m_sd m0 = m_sd m /\
      m_queue m0 = [] /\ m_qsize m0 = 0 /\ m_iffy m0 = false /\
      (forall k, view m0 k = kfold (ncols m) k (evs_of []) None) /\
      (m_sd m = [] -> exact_fit (ncols m) (evs_of []) -> full m0) /\ (tail_live [] -> 0 <= m_dver m0).
Proof.
  intros m t R _. exists (reload_base m). split; [reflexivity|]. split; [eapply rinv_reload, R|].
  do 5 (split; [reflexivity|]). split; [intros k; reflexivity|]. split; [intros _ _ i o E; destruct i; discriminate|intros _; apply N.le_0_l].
Qed.
Definition no_past : past := mk_past [] 0 no_past_ok (fun _ => N.le_0_l 1).

Section Inv.
Context {PA : past}.
(** what this server added to the file *)
Definition later (s : bst) : list batch := skipn (length (pa_bs PA)) (b_file s).
Definition fresh (s : bst) : list bev := evs_of (later s) ++ flying s.

Record binv (s : bst) : Prop := {
  bi_r : rinv (b_m s) (m_dver (b_m s));
  bi_iffy : m_iffy (b_m s) = false;
  bi_bad : b_bad s = false;
  bi_q : Forall (fun d => exists o, nth_error (m_objs (b_m s)) (dd_row d) = Some o /\
                   (dd_kind d <> DkDelete -> dd_ver d <= ro_rev o)) (m_queue (b_m s));
  bi_inc : incr (pa_t PA) (txns (fresh s) ++ map dd_ver (m_queue (b_m s)));
  bi_bnd : bound (pa_t PA) (txns (fresh s) ++ map dd_ver (m_queue (b_m s))) <= m_dver (b_m s);
  bi_fit : fits (ncols (b_m s)) (written s);
  bi_view : forall k, kfold (ncols (b_m s)) k (written s ++ pend (b_m s)) None = view (b_m s) k;
  bi_full : m_sd (b_m s) = [] -> full (b_m s) /\ exact_fit (ncols (b_m s)) (written s);
  bi_cnt : N.of_nat (length (m_queue (b_m s))) = m_qsize (b_m s) + claimed s;
  bi_pre : exists rest, b_file s = pa_bs PA ++ rest
}.
Lemma later_app s rest : b_file s = pa_bs PA ++ rest -> later s = rest.
Proof. intros E. unfold later. rewrite E, skipn_app, skipn_all, Nat.sub_diag. reflexivity. Qed.
Lemma written_fresh s : (exists rest, b_file s = pa_bs PA ++ rest) -> written s = evs_of (pa_bs PA) ++ fresh s.
Proof.
  intros (rest & E). unfold written, fresh. rewrite (later_app _ _ E), E. unfold evs_of. rewrite map_app, concat_app, <- app_assoc. reflexivity.
Qed.
End Inv.

(** changes that do not show: reads, refused writes *)
Record soft (m m' : mst) : Prop := {
  so_lay : m_lay m' = m_lay m;
  so_sd : m_sd m' = m_sd m;
  so_idx : m_idx m' = m_idx m;
  so_dver : m_dver m <= m_dver m';
  so_queue : m_queue m' = m_queue m;
  so_qsize : m_qsize m' = m_qsize m;
  so_iffy : m_iffy m' = m_iffy m;
  so_len : length (m_objs m') = length (m_objs m);
  so_obj : forall i o, nth_error (m_objs m) i = Some o ->
    exists o', nth_error (m_objs m') i = Some o' /\ ro_key o' = ro_key o /\ ro_rev o' = ro_rev o /\
      row_cells (m_lay m) (ro_fields o') = row_cells (m_lay m) (ro_fields o) /\
      (NoDup (akeys (ro_fields o)) -> NoDup (akeys (ro_fields o'))) /\
      (incl (akeys (ro_fields o)) (col_names (m_lay m)) -> incl (akeys (ro_fields o')) (col_names (m_lay m))) /\
      incl (akeys (ro_fields o)) (akeys (ro_fields o'))
}.

Lemma soft_refl m : soft m m.
Proof. constructor; auto; [lia|]. intros i o E. exists o. auto 10 using incl_refl. Qed.
Lemma soft_trans a b c : soft a b -> soft b c -> soft a c.
Proof.
  intros [] []. constructor; try congruence; [lia|]. intros i o E.
  destruct (so_obj0 i o E) as (o1 & E1 & K1 & R1 & C1 & N1 & I1 & J1).
  destruct (so_obj1 i o1 E1) as (o2 & E2 & K2 & R2 & C2 & N2 & I2 & J2).
  rewrite so_lay0 in *. exists o2. repeat (split; [solve [auto|congruence]|]). eapply incl_tran; eauto.
Qed.
Lemma soft_bump m : soft m (bump_dver m).
Proof. destruct (soft_refl m). constructor; auto. cbn. lia. Qed.

Lemma soft_back m m' i o' : soft m m' -> nth_error (m_objs m') i = Some o' ->
  exists o, nth_error (m_objs m) i = Some o /\ ro_key o' = ro_key o /\ ro_rev o' = ro_rev o /\
      row_cells (m_lay m) (ro_fields o') = row_cells (m_lay m) (ro_fields o) /\
      (NoDup (akeys (ro_fields o)) -> NoDup (akeys (ro_fields o'))) /\
      (incl (akeys (ro_fields o)) (col_names (m_lay m)) -> incl (akeys (ro_fields o')) (col_names (m_lay m))) /\
      incl (akeys (ro_fields o)) (akeys (ro_fields o')).
Proof.
  intros S E. destruct (nth_error (m_objs m) i) as [o|] eqn:EO.
  - destruct (so_obj _ _ S i o EO) as (o1 & E1 & X). rewrite E in E1. inversion E1; subst. exists o. auto.
  - exfalso. apply nth_error_None in EO. rewrite <- (so_len _ _ S) in EO. apply nth_error_None in EO. congruence.
Qed.
Lemma soft_view m m' k : soft m m' -> view m' k = view m k.
Proof.
  intros S. unfold view. rewrite (so_idx _ _ S). destruct (aget pkey_eqb k (m_idx m)) as [i|]; [|reflexivity].
  destruct (nth_error (m_objs m) i) as [o|] eqn:EO.
  - destruct (so_obj _ _ S i o EO) as (o1 & E1 & K & R & C & _). rewrite E1, (so_lay _ _ S), R, C. reflexivity.
  - apply nth_error_None in EO. rewrite <- (so_len _ _ S) in EO. apply nth_error_None in EO. rewrite EO. reflexivity.
Qed.
Lemma soft_pend1 m m' d : soft m m' -> pend1 m' d = pend1 m d.
Proof.
  intros S. unfold pend1. destruct (nth_error (m_objs m) (dd_row d)) as [o|] eqn:EO.
  - destruct (so_obj _ _ S _ o EO) as (o1 & E1 & K & R & C & _). rewrite E1, (so_lay _ _ S), R, K, C. reflexivity.
  - apply nth_error_None in EO. rewrite <- (so_len _ _ S) in EO. apply nth_error_None in EO. rewrite EO. reflexivity.
Qed.
Lemma soft_pend m m' : soft m m' -> pend m' = pend m.
Proof. intros S. unfold pend. rewrite (so_queue _ _ S). apply flat_map_ext. intros d. apply soft_pend1, S. Qed.
Lemma soft_rinv m m' t : soft m m' -> rinv m t -> rinv m' t.
Proof.
  intros S [[GL GN GR] RN RA RS RC RR].
  constructor; [constructor| | | | |]; rewrite ?(so_lay _ _ S), ?(so_sd _ _ S), ?(so_idx _ _ S); auto.
  - intros k i G. destruct (GR _ _ G) as (o & E & K). destruct (so_obj _ _ S _ _ E) as (o' & E' & K' & _).
    exists o'. split; [exact E'|congruence].
  - intros i o' E. destruct (soft_back _ _ _ _ S E) as (o & E0 & K & R & C & N & I & J). apply N. eapply RN; eauto.
  - intros i o' E. destruct (soft_back _ _ _ _ S E) as (o & E0 & K & R & C & N & I & J). apply I. eapply RC; eauto.
  - intros i o' E. destruct (soft_back _ _ _ _ S E) as (o & E0 & K & R & C & N & I & J). rewrite R. eapply RR; eauto.
Qed.

Definition with_m (m : mst) (s : bst) : bst := mk_bst m (b_file s) (b_tasks s) (b_fl s) (b_torn s) (b_bad s).
Lemma binv_soft {PA : past} s m' : soft (b_m s) m' -> binv s -> binv (with_m m' s).
Proof.
  intros S [R IF BD Q IN BN FI V FU CN PR].
  constructor; unfold with_m, fresh, later, written, flying, claimed, ncols in *; cbn [b_m b_file b_fl b_bad b_tasks] in *;
    rewrite ?(so_lay _ _ S), ?(so_sd _ _ S), ?(so_queue _ _ S), ?(so_qsize _ _ S), ?(so_iffy _ _ S); auto.
  - eapply rinv_mono; [eapply soft_rinv; eauto|apply (so_dver _ _ S)].
  - eapply Forall_impl; [|exact Q]. intros d (o & E & H). destruct (so_obj _ _ S _ _ E) as (o' & E' & K' & R' & _).
    exists o'. split; [exact E'|]. rewrite R'. exact H.
  - pose proof (so_dver _ _ S). lia.
  - intros k. rewrite (soft_pend _ _ S), (soft_view _ _ _ S). apply V.
  - intros SD. destruct (FU SD) as [F1 F2]. split; [|exact F2]. intros i o' E. rewrite (so_lay _ _ S).
    destruct (soft_back _ _ _ _ S E) as (o & E0 & K & R0 & C & N & I & J). eapply incl_tran; [eapply F1; eauto|exact J].
Qed.

Lemma soft_put m i o o' : nth_error (m_objs m) i = Some o -> ro_key o' = ro_key o -> ro_rev o' = ro_rev o ->
  row_cells (m_lay m) (ro_fields o') = row_cells (m_lay m) (ro_fields o) ->
  (NoDup (akeys (ro_fields o)) -> NoDup (akeys (ro_fields o'))) ->
  (incl (akeys (ro_fields o)) (col_names (m_lay m)) -> incl (akeys (ro_fields o')) (col_names (m_lay m))) ->
  incl (akeys (ro_fields o)) (akeys (ro_fields o')) -> soft m (set_objs (upd_nth i o' (m_objs m)) m).
Proof.
  intros E K R C N I J. constructor; cbn [m_lay m_sd m_idx m_dver m_queue m_qsize m_iffy m_objs set_objs]; auto; [lia| |].
  - apply upd_nth_length.
  - intros j x EX. destruct (Nat.eq_dec i j) as [<-|NE].
    + assert (x = o) by congruence. subst x. rewrite (nth_upd_same _ _ _ _ E). exists o'. auto 10.
    + rewrite nth_upd_other by exact NE. exists x. auto 10 using incl_refl.
Qed.

Lemma apply_sd_grow ds : Forall is_add ds -> forall m, incl (akeys m) (akeys (fold_left apply_sd ds m)).
Proof.
  induction 1 as [|d ds H F IH]; intros m; [apply incl_refl|]. cbn [fold_left]. eapply incl_tran; [|apply IH].
  destruct d; [|destruct H]. cbn [apply_sd]. unfold rf_insert. destruct (aget bseq f m); cbn [fst]; [apply incl_refl|].
  rewrite akeys_app. apply incl_appl, incl_refl.
Qed.
Lemma soft_resolve m i o t : rinv m t -> nth_error (m_objs m) i = Some o ->
  soft m (set_objs (upd_nth i (resolve (m_sd m) o) (m_objs m)) m).
Proof.
  intros R E. destruct R as [_ _ RA RS _ _]. eapply soft_put; eauto.
  - apply resolve_key. - apply resolve_rev. - apply cells_resolve; exact RA. - apply resolve_nd.
  - apply resolve_keys; auto.
  - unfold resolve. destruct (Nat.leb _ _); [apply incl_refl|]. cbn [ro_fields]. apply apply_sd_grow, forall_skipn, RA.
Qed.
Lemma soft_scan lay cols ids t : forall m, rinv m t ->
  soft m (set_objs (fst (scan_rows lay (m_sd m) cols ids (m_objs m))) m).
Proof.
  induction ids as [|i ids IH]; intros m R; cbn [scan_rows].
  { cbn [fst]. destruct m; apply soft_refl. }
  destruct (nth_error (m_objs m) i) as [o|] eqn:E; [|destruct m; apply soft_refl]. cbv zeta.
  pose proof (soft_resolve m i o t R E) as S.
  destruct (read_cols_all _ _ _ _); [|exact S].
  pose proof (IH _ (soft_rinv _ _ _ S R)) as S2. cbn [m_sd m_objs set_objs] in S2.
  destruct (scan_rows lay (m_sd m) cols ids (upd_nth i (resolve (m_sd m) o) (m_objs m))) as [objs2 rs]. cbn [fst] in *.
  eapply soft_trans; [exact S|]. exact S2.
Qed.

(** * Steps preserve the invariant *)

Lemma kfold_filter n k es : forall v, kfold n k es v = kfold n k (filter (fun e => pkey_eqb (be_key e) k) es) v.
Proof.
  induction es as [|e es IH]; intros v; [reflexivity|]. cbn [filter]. destruct (pkey_eqb (be_key e) k) eqn:E.
  - cbn [kfold fold_left]. apply IH.
  - cbn [kfold fold_left]. unfold kstep at 2. rewrite E. apply IH.
Qed.

Lemma col_names_in l c : In c (col_names l) <-> c <> lo_pk l /\ In c (map fst (lo_fields l)).
Proof.
  unfold col_names. rewrite filter_In. split; intros [H1 H2].
  - split; [|exact H1]. intros ->. rewrite bseq_refl in H2. discriminate.
  - split; [exact H2|]. destruct (bseq c (lo_pk l)) eqn:E; [apply bseq_eq in E; contradiction|reflexivity].
Qed.

Lemma incr_drop a x b : forall t, incr t (a ++ x :: b) -> incr t (a ++ b) /\ bound t (a ++ b) <= bound t (a ++ x :: b).
Proof.
  induction a as [|y a IH]; intros t; cbn [app incr bound].
  - intros [H1 H2]. split; [eapply incr_mono; [|exact H2]; lia|]. destruct b as [|z b]; cbn [bound] in *; lia.
  - intros [H1 H2]. destruct (IH _ H2). auto.
Qed.

Lemma exact_fits n es : exact_fit n es -> fits n es.
Proof. intros H. eapply Forall_impl; [|exact H]. cbn. intros e X P. rewrite (X P). lia. Qed.

Lemma flat_map_ext_in {A B} (f g : A -> list B) l : (forall a, In a l -> f a = g a) -> flat_map f l = flat_map g l.
Proof.
  induction l as [|x l IH]; intros H; [reflexivity|]. cbn [flat_map]. rewrite (H x) by (left; reflexivity). f_equal.
  apply IH. intros a Ha. apply H. right. exact Ha.
Qed.
Lemma pend1_key m d e : In e (pend1 m d) -> exists o, nth_error (m_objs m) (dd_row d) = Some o /\ be_key e = ro_key o.
Proof.
  unfold pend1. destruct (nth_error (m_objs m) (dd_row d)) as [o|]; [|intros []]. intros H. exists o. split; [reflexivity|].
  destruct (dd_kind d); [destruct H as [<-|[]]; reflexivity| |]; (destruct (dd_ver d <? ro_rev o); [destruct H|]; destruct H as [<-|[]]; reflexivity).
Qed.

Section Steps.
Context {PA : past}.
Variable farith : aop -> N -> N -> N.
Variable order : fieldmap -> fieldmap.
Hypothesis order_perm : forall l, Permutation (order l) l.

Lemma rinv_ginv s t : rinv s t -> ginv s. Proof. intros []; assumption. Qed.

Lemma binv_insert s d m' r : binv s -> data_ok d -> rstep farith order (b_m s) (RInsert d) = (m', r) -> binv (with_m m' s).
Proof.
  intros B HD H. pose proof B as [R IF BD Q IN BN FI V FU CN PR]. pose proof R as [[GL GN GR] RN RA RS RC RR].
  cbn [rstep] in H. unfold exec_insert in H. rewrite IF in H.
  destruct (prepare_insert (m_lay (b_m s)) d) as [[pk row]| |] eqn:EP.
  2, 3: inversion H; subst; destruct s; exact B.
  destruct (prepare_ok _ _ _ _ GL HD EP) as (C & -> & ->). cbn [bump_dver set_dver m_idx m_objs sver m_sd] in H.
  set (m := b_m s) in *. set (pk := ins_key (m_lay m) d) in *. set (row := ins_row (m_lay m) d) in *.
  destruct (aget pkey_eqb pk (m_idx m)) as [i0|] eqn:G0.
  { inversion H; subst. apply binv_soft; [apply soft_bump|exact B]. }
  cbv zeta in H. inversion H; subst m' r; clear H.
  set (o := mk_row pk row (m_dver m) (length (m_sd m))).
  pose proof (ins_row_cols _ _ GL C) as CO.
  assert (CI : forall c, In c (akeys row) <-> In c (col_names (m_lay m))).
  { intros c. rewrite col_names_in. specialize (CO c). fold row in CO. tauto. }
  assert (NTH : forall i x, nth_error (m_objs m ++ [o]) i = Some x -> nth_error (m_objs m) i = Some x \/ (i = length (m_objs m) /\ x = o)).
  { intros i x E. destruct (Nat.lt_ge_cases i (length (m_objs m))) as [L|L].
    - rewrite nth_error_app1 in E by exact L. auto.
    - rewrite nth_error_app2 in E by exact L. destruct (i - length (m_objs m))%nat as [|[|?]] eqn:D; try discriminate.
      cbn in E. inversion E. right. split; [lia|reflexivity]. }
  assert (OLD : forall i x, nth_error (m_objs m) i = Some x -> nth_error (m_objs m ++ [o]) i = Some x).
  { intros i x E. rewrite nth_error_app1; [exact E|]. apply nth_error_Some. congruence. }
  assert (NEWO : nth_error (m_objs m ++ [o]) (length (m_objs m)) = Some o).
  { rewrite nth_error_app2, Nat.sub_diag by lia. reflexivity. }
  set (e := mk_bev DkInsert (m_dver m) pk (row_cells (m_lay m) row)).
  match goal with |- binv (with_m ?x s) => set (m' := x) end.
  assert (PE : pend m' = pend m ++ [e]).
  { unfold pend. change (m_queue m') with (m_queue m ++ [mk_dd (m_dver m) (length (m_objs m)) DkInsert]).
    rewrite flat_map_app. f_equal.
    - rewrite Forall_forall in Q. apply flat_map_ext_in. intros x Hx. destruct (Q x Hx) as (ox & EX & _).
      unfold pend1. change (m_objs m') with (m_objs m ++ [o]). rewrite (OLD _ _ EX), EX. reflexivity.
    - cbn [flat_map]. unfold pend1. change (m_objs m') with (m_objs m ++ [o]). cbn [dd_row dd_kind dd_ver]. rewrite NEWO.
      cbn [ro_rev ro_key ro_fields o]. rewrite N.ltb_irrefl. reflexivity. }
  assert (TX : incr (bound (pa_t PA) (txns (fresh s) ++ map dd_ver (m_queue m))) [m_dver m]) by (cbn [incr]; split; [exact BN|exact Logic.I]).
  constructor; unfold with_m, fresh, later, written, flying, claimed, ncols in *; cbn [b_m b_file b_fl b_bad b_tasks] in *; try assumption.
  - change (m_dver m') with (m_dver m + 1). constructor.
    + constructor; [exact GL| |].
      * apply (nodup_put _ pkey_eqb_eq). exact GN.
      * change (m_idx m') with (aput pkey_eqb pk (length (m_objs m)) (m_idx m)). change (m_objs m') with (m_objs m ++ [o]).
        intros k i G. destruct (pkey_eqb k pk) eqn:E.
        -- apply pkey_eqb_eq in E. subst k. rewrite (aget_put_same _ pkey_eqb_eq) in G. inversion G; subst. exists o. auto.
        -- rewrite (aget_put_other _ pkey_eqb_eq) in G by (apply pkey_neq; exact E).
           destruct (GR _ _ G) as (x & E1 & E2). exists x. auto.
    + intros i x E. apply NTH in E as [E|[-> ->]]; [eapply RN; eauto|]. apply ins_row_nodup; auto.
    + exact RA. + exact RS.
    + intros i x E. apply NTH in E as [E|[-> ->]]; [eapply RC; eauto|]. intros c Hc. apply CI. exact Hc.
    + intros i x E. apply NTH in E as [E|[-> ->]]; [specialize (RR i x E); lia|]. cbn [ro_rev o]. lia.
  - change (m_queue m') with (m_queue m ++ [mk_dd (m_dver m) (length (m_objs m)) DkInsert]).
    change (m_objs m') with (m_objs m ++ [o]). apply Forall_app. split.
    + eapply Forall_impl; [|exact Q]. intros x (ox & EX & H). exists ox. auto.
    + constructor; [|constructor]. exists o. split; [exact NEWO|]. intros _. cbn. lia.
  - change (m_queue m') with (m_queue m ++ [mk_dd (m_dver m) (length (m_objs m)) DkInsert]).
    rewrite map_app, app_assoc. apply incr_app. split; [exact IN|]. exact TX.
  - change (m_queue m') with (m_queue m ++ [mk_dd (m_dver m) (length (m_objs m)) DkInsert]).
    rewrite map_app, app_assoc, bound_app. cbn [map dd_ver bound]. change (m_dver m') with (m_dver m + 1). lia.
  - intros k. change (m_lay m') with (m_lay m). rewrite PE, app_assoc, kfold_app, V.
    cbn [kfold fold_left]. unfold kstep. cbn [be_key be_kind be_txn be_cells e]. unfold view.
    change (m_idx m') with (aput pkey_eqb pk (length (m_objs m)) (m_idx m)). change (m_objs m') with (m_objs m ++ [o]).
    change (m_lay m') with (m_lay m). destruct (pkey_eqb pk k) eqn:E.
    + apply pkey_eqb_eq in E. subst k. rewrite (aget_put_same _ pkey_eqb_eq), NEWO.
      rewrite pad_id by apply row_cells_len. reflexivity.
    + rewrite (aget_put_other _ pkey_eqb_eq) by (apply not_eq_sym, pkey_neq; exact E).
      destruct (aget pkey_eqb k (m_idx m)) as [i|] eqn:G; [|reflexivity]. destruct (GR _ _ G) as (x & E1 & E2).
      rewrite (OLD _ _ E1), E1. reflexivity.
  - change (m_sd m') with (m_sd m). intros SD. destruct (FU SD) as [F1 F2]. split; [|exact F2].
    intros i x E. apply NTH in E as [E|[-> ->]]; [apply (F1 _ _ E)|]. intros c Hc. apply CI. exact Hc.
  - change (m_queue m') with (m_queue m ++ [mk_dd (m_dver m) (length (m_objs m)) DkInsert]).
    change (m_qsize m') with (m_qsize m + 1). rewrite app_length. cbn [length]. lia.
Qed.

Lemma binv_delete s w m' r : binv s -> rstep farith order (b_m s) (RDelete w) = (m', r) -> binv (with_m m' s).
Proof.
  intros B H. pose proof B as [R IF BD Q IN BN FI V FU CN PR]. pose proof R as [[GL GN GR] RN RA RS RC RR].
  cbn [rstep] in H. unfold exec_delete in H. rewrite IF in H. cbv zeta in H.
  destruct (resolve_where (m_lay (b_m s)) w) as [x|].
  2: { inversion H; subst. apply binv_soft; [apply soft_bump|exact B]. }
  cbn [bump_dver set_dver m_idx] in H. set (m := b_m s) in *. set (pk := lit_key x) in *.
  destruct (aget pkey_eqb pk (m_idx m)) as [i|] eqn:G0.
  2: { inversion H; subst. apply binv_soft; [apply soft_bump|exact B]. }
  inversion H; subst m' r; clear H. destruct (GR _ _ G0) as (o & EO & KO).
  match goal with |- binv (with_m ?x s) => set (m' := x) end.
  set (e := mk_bev DkDelete (m_dver m) pk []).
  assert (PE : pend m' = pend m ++ [e]).
  { unfold pend. change (m_queue m') with (m_queue m ++ [mk_dd (m_dver m) i DkDelete]). rewrite flat_map_app. f_equal.
    cbn [flat_map]. unfold pend1. change (m_objs m') with (m_objs m). cbn [dd_row dd_kind dd_ver]. rewrite EO, KO. reflexivity. }
  constructor; unfold with_m, fresh, later, written, flying, claimed, ncols in *; cbn [b_m b_file b_fl b_bad b_tasks] in *; try assumption.
  - change (m_dver m') with (m_dver m + 1). constructor; try assumption.
    + constructor; [exact GL| |].
      * apply (nodup_del _ pkey_eqb_eq). exact GN.
      * change (m_idx m') with (adel pkey_eqb pk (m_idx m)). intros k j G. destruct (pkey_eqb k pk) eqn:E.
        -- apply pkey_eqb_eq in E. subst k. rewrite aget_del_same in G. discriminate.
        -- rewrite (aget_del_other _ pkey_eqb_eq) in G by (apply pkey_neq; exact E). apply (GR _ _ G).
    + intros j y E. specialize (RR j y E). lia.
  - change (m_queue m') with (m_queue m ++ [mk_dd (m_dver m) i DkDelete]). apply Forall_app. split; [exact Q|].
    constructor; [|constructor]. exists o. split; [exact EO|]. cbn. congruence.
  - change (m_queue m') with (m_queue m ++ [mk_dd (m_dver m) i DkDelete]).
    rewrite map_app, app_assoc. apply incr_app. split; [exact IN|]. cbn [map incr dd_ver]. split; [exact BN|exact Logic.I].
  - change (m_queue m') with (m_queue m ++ [mk_dd (m_dver m) i DkDelete]).
    rewrite map_app, app_assoc, bound_app. cbn [map dd_ver bound]. change (m_dver m') with (m_dver m + 1). lia.
  - intros k. change (m_lay m') with (m_lay m). rewrite PE, app_assoc, kfold_app, V.
    cbn [kfold fold_left]. unfold kstep. cbn [be_key be_kind be_txn be_cells e]. unfold view.
    change (m_idx m') with (adel pkey_eqb pk (m_idx m)). change (m_objs m') with (m_objs m).
    change (m_lay m') with (m_lay m). destruct (pkey_eqb pk k) eqn:E.
    + apply pkey_eqb_eq in E. subst k. rewrite aget_del_same, G0, EO. specialize (RR _ _ EO).
      destruct (N.leb_spec (ro_rev o) (m_dver m)); [reflexivity|lia].
    + rewrite (aget_del_other _ pkey_eqb_eq) by (apply not_eq_sym, pkey_neq; exact E). reflexivity.
  - change (m_queue m') with (m_queue m ++ [mk_dd (m_dver m) i DkDelete]).
    change (m_qsize m') with (m_qsize m + 1). rewrite app_length. cbn [length]. lia.
Qed.

Lemma binv_update s w asg m' r : binv s -> rstep farith order (b_m s) (RUpdate w asg) = (m', r) ->
  r = RoOk \/ (r <> RoPanic /\ r <> RoUb /\ NoDup (map as_lhs asg) /\ Forall (fun a => ~ is_append (lo_fields (m_lay (b_m s))) a) asg) ->
  binv (with_m m' s).
Proof.
  intros B H HC. pose proof B as [R IF BD Q IN BN FI V FU CN PR]. pose proof R as [[GL GN GR] RN RA RS RC RR].
  pose proof (update_cases farith order (b_m s) w asg (rinv_ginv _ _ R) IF) as UC.
  destruct (asked (m_lay (b_m s)) w) as [pk|].
  2: { rewrite UC in H. inversion H; subst. destruct s; exact B. }
  set (m := b_m s) in *. destruct (aget pkey_eqb pk (m_idx m)) as [i|] eqn:G0.
  2: { rewrite UC in H. inversion H; subst. destruct s; exact B. }
  destruct UC as (o & EO & KO & _ & UC).
  destruct (update_row farith (lo_fields (m_lay m)) (ro_fields o) asg) as [fs r0] eqn:EU.
  pose proof (update_row_keys farith (lo_fields (m_lay m)) (ro_fields o) asg) as UK. rewrite EU in UK. cbn [fst] in UK.
  assert (BAD : r0 <> RoOk -> rstep farith order m (RUpdate w asg) = (set_objs (upd_nth i (with_fields fs o) (m_objs m)) (bump_dver m), r0) -> binv (with_m m' s)).
  { intros NO E. rewrite E in H. inversion H; subst r m'. destruct HC as [->|(NP & NU & ND & NA)]; [congruence|].
    assert (fs = ro_fields o).
    { destruct r0; try congruence; try (eapply update_error_same; eauto; fail).
      - exfalso. revert EU. unfold update_row. destruct (upd_loop _ _ _ _ _ _); discriminate.
      - exfalso. revert EU. unfold update_row. destruct (upd_loop _ _ _ _ _ _); discriminate. }
    subst fs. assert (W : with_fields (ro_fields o) o = o) by (destruct o; reflexivity). rewrite W, (upd_nth_id _ _ _ EO).
    apply binv_soft; [|exact B]. assert (set_objs (m_objs m) (bump_dver m) = bump_dver m) as -> by reflexivity. apply soft_bump. }
  destruct r0; try (apply BAD; [discriminate|exact UC]). clear BAD HC. rewrite UC in H. inversion H; subst m' r; clear H.
  match goal with |- binv (with_m ?x s) => set (m' := x) end.
  set (o' := mk_row (ro_key o) fs (m_dver m) (ro_sv o)) in *.
  set (e := mk_bev DkUpdate (m_dver m) pk (row_cells (m_lay m) fs)).
  assert (NTH : forall j x, nth_error (upd_nth i o' (m_objs m)) j = Some x -> (j = i /\ x = o') \/ (j <> i /\ nth_error (m_objs m) j = Some x)).
  { intros j x E. destruct (Nat.eq_dec i j) as [<-|NE].
    - rewrite (nth_upd_same _ _ _ _ EO) in E. inversion E. auto.
    - rewrite nth_upd_other in E by exact NE. auto. }
  assert (NEWO : nth_error (upd_nth i o' (m_objs m)) i = Some o') by (apply (nth_upd_same _ _ _ _ EO)).
  assert (OTH : forall j, j <> i -> nth_error (upd_nth i o' (m_objs m)) j = nth_error (m_objs m) j).
  { intros j NE. apply nth_upd_other. auto. }
  assert (PE : pend m' = flat_map (pend1 m') (m_queue m) ++ [e]).
  { unfold pend. change (m_queue m') with (m_queue m ++ [mk_dd (m_dver m) i DkUpdate]). rewrite flat_map_app. f_equal.
    cbn [flat_map]. unfold pend1. change (m_objs m') with (upd_nth i o' (m_objs m)). cbn [dd_row dd_kind dd_ver]. rewrite NEWO.
    cbn [ro_rev ro_key ro_fields o']. rewrite N.ltb_irrefl, KO. reflexivity. }
  assert (FP : forall k, k <> pk -> filter (fun e => pkey_eqb (be_key e) k) (flat_map (pend1 m') (m_queue m)) =
                                 filter (fun e => pkey_eqb (be_key e) k) (flat_map (pend1 m) (m_queue m))).
  { intros k NK. clear -NK OTH NEWO EO KO. induction (m_queue m) as [|d q IH]; [reflexivity|]. cbn [flat_map].
    rewrite !filter_app, IH. f_equal. destruct (Nat.eq_dec (dd_row d) i) as [E|NE].
    - assert (X : forall mm oo, nth_error (m_objs mm) (dd_row d) = Some oo -> ro_key oo = pk ->
                filter (fun e => pkey_eqb (be_key e) k) (pend1 mm d) = []).
      { intros mm oo E1 E2. assert (Y : Forall (fun e => be_key e <> k) (pend1 mm d)).
        { apply Forall_forall. intros x Hx. destruct (pend1_key _ _ _ Hx) as (y & Y1 & Y2). congruence. }
        induction Y as [|a l HA HL IHY]; [reflexivity|]. cbn [filter].
        destruct (pkey_eqb (be_key a) k) eqn:EK; [apply pkey_eqb_eq in EK; contradiction|exact IHY]. }
      rewrite E in X. change (m_objs m') with (upd_nth i o' (m_objs m)) in *.
      rewrite (X m' o'), (X m o); auto.
    - unfold pend1. change (m_objs m') with (upd_nth i o' (m_objs m)). rewrite OTH by exact NE. reflexivity. }
  constructor; unfold with_m, fresh, later, written, flying, claimed, ncols in *; cbn [b_m b_file b_fl b_bad b_tasks] in *; try assumption.
  - change (m_dver m') with (m_dver m + 1). constructor; try assumption.
    + constructor; [exact GL|exact GN|]. change (m_idx m') with (m_idx m). change (m_objs m') with (upd_nth i o' (m_objs m)).
      intros k j G. destruct (GR _ _ G) as (x & E1 & E2). destruct (Nat.eq_dec j i) as [->|NE].
      * exists o'. split; [exact NEWO|]. cbn [ro_key o']. congruence.
      * exists x. rewrite OTH by exact NE. auto.
    + intros j x E. apply NTH in E as [[-> ->]|[NE E]]; [|eapply RN; eauto]. cbn [ro_fields o']. rewrite UK. eapply RN; eauto.
    + intros j x E. apply NTH in E as [[-> ->]|[NE E]]; [|eapply RC; eauto]. cbn [ro_fields o']. rewrite UK. eapply RC; eauto.
    + intros j x E. apply NTH in E as [[-> ->]|[NE E]]; [cbn [ro_rev o']; lia|specialize (RR j x E); lia].
  - change (m_queue m') with (m_queue m ++ [mk_dd (m_dver m) i DkUpdate]). change (m_objs m') with (upd_nth i o' (m_objs m)).
    apply Forall_app. split.
    + eapply Forall_impl; [|exact Q]. intros d (x & EX & HX). destruct (Nat.eq_dec (dd_row d) i) as [E|NE].
      * exists o'. rewrite E. split; [exact NEWO|]. intros ND. specialize (HX ND). rewrite E in EX. assert (x = o) by congruence. subst x.
        specialize (RR _ _ EO). cbn [ro_rev o']. lia.
      * exists x. rewrite OTH by exact NE. auto.
    + constructor; [|constructor]. exists o'. split; [exact NEWO|]. intros _. cbn. lia.
  - change (m_queue m') with (m_queue m ++ [mk_dd (m_dver m) i DkUpdate]).
    rewrite map_app, app_assoc. apply incr_app. split; [exact IN|]. cbn [map incr dd_ver]. split; [exact BN|exact Logic.I].
  - change (m_queue m') with (m_queue m ++ [mk_dd (m_dver m) i DkUpdate]).
    rewrite map_app, app_assoc, bound_app. cbn [map dd_ver bound]. change (m_dver m') with (m_dver m + 1). lia.
  - intros k. change (m_lay m') with (m_lay m). rewrite PE, app_assoc, kfold_app.
    cbn [kfold fold_left]. unfold kstep. cbn [be_key be_kind be_txn be_cells e]. unfold view.
    change (m_idx m') with (m_idx m). change (m_objs m') with (upd_nth i o' (m_objs m)). change (m_lay m') with (m_lay m).
    destruct (pkey_eqb pk k) eqn:E.
    + apply pkey_eqb_eq in E. subst k. rewrite G0, NEWO. cbn [ro_rev ro_fields o']. rewrite pad_id by apply row_cells_len. reflexivity.
    + assert (NK : k <> pk) by (apply not_eq_sym, pkey_neq; exact E). rewrite kfold_filter, filter_app, (FP k NK), <- filter_app, <- kfold_filter.
      specialize (V k). unfold pend in V. rewrite V. unfold view. destruct (aget pkey_eqb k (m_idx m)) as [j|] eqn:G; [|reflexivity].
      destruct (Nat.eq_dec j i) as [->|NE].
      * exfalso. destruct (GR _ _ G) as (x & E1 & E2). congruence.
      * rewrite OTH by exact NE. reflexivity.
  - change (m_sd m') with (m_sd m). intros SD. destruct (FU SD) as [F1 F2]. split; [|exact F2].
    intros j x E. apply NTH in E as [[-> ->]|[NE E]]; [|apply (F1 _ _ E)]. cbn [ro_fields o']. rewrite UK. apply (F1 _ _ EO).
  - change (m_queue m') with (m_queue m ++ [mk_dd (m_dver m) i DkUpdate]).
    change (m_qsize m') with (m_qsize m + 1). rewrite app_length. cbn [length]. lia.
Qed.

Lemma binv_select s w cols m' r : binv s -> rstep farith order (b_m s) (RSelect w cols) = (m', r) -> binv (with_m m' s).
Proof.
  intros B H. pose proof (bi_r _ B) as R. cbn [rstep] in H. unfold exec_select in H.
  destruct (resolve_where (m_lay (b_m s)) w) as [x|]; [|inversion H; subst; destruct s; exact B].
  destruct (aget pkey_eqb (lit_key x) (m_idx (b_m s))) as [i|]; [|inversion H; subst; destruct s; exact B].
  destruct (nth_error (m_objs (b_m s)) i) as [o|] eqn:EO; [|inversion H; subst; destruct s; exact B]. cbv zeta in H.
  destruct (read_cols _ _ _ _); inversion H; subst; (apply binv_soft; [eapply soft_resolve; eauto|exact B]).
Qed.
Lemma binv_select_all s cols lim m' r : binv s -> rstep farith order (b_m s) (RSelectAll cols lim) = (m', r) -> binv (with_m m' s).
Proof.
  intros B H. pose proof (bi_r _ B) as R. cbn [rstep] in H. unfold exec_select_all in H.
  destruct (match cols with None => false | Some l => _ end); [inversion H; subst; destruct s; exact B|].
  destruct (scan_rows _ _ _ _ _) as [objs rs] eqn:ES. inversion H; subst. apply binv_soft; [|exact B].
  eapply (soft_scan _ _ _ _ (b_m s)) in R. rewrite ES in R. exact R.
Qed.

(** ** ALTER MODEL ADD *)

Lemma pad_more n x cs : (length cs <= n)%nat -> pad (n + x) cs = pad n cs ++ repeat CNull x.
Proof.
  intros H. unfold pad. rewrite <- app_assoc, <- repeat_app. f_equal. f_equal. lia.
Qed.
Definition grown (x : nat) (v : option (N * list cell)) : option (N * list cell) :=
  match v with Some (r, cs) => Some (r, cs ++ repeat CNull x) | None => None end.

Definition ev_grow (n x : nat) (a b : bev) : Prop :=
  be_kind a = be_kind b /\ be_txn a = be_txn b /\ be_key a = be_key b /\
  (is_put a -> pad (n + x) (be_cells b) = pad n (be_cells a) ++ repeat CNull x).
Lemma kfold_grow n x k : forall es es', Forall2 (ev_grow n x) es es' -> forall v, kfold (n + x) k es' (grown x v) = grown x (kfold n k es v).
Proof.
  induction 1 as [|a b es es' (E1 & E2 & E3 & E4) H IH]; intros v; [reflexivity|].
  change (kfold (n + x) k (b :: es') (grown x v)) with (kfold (n + x) k es' (kstep (n + x) k (grown x v) b)).
  change (kfold n k (a :: es) v) with (kfold n k es (kstep n k v a)). rewrite <- IH. f_equal. unfold kstep.
  rewrite <- E3, <- E1, <- E2. destruct (pkey_eqb (be_key a) k); [|reflexivity]. unfold is_put in E4.
  destruct (be_kind a).
  - destruct v as [[r cs]|]; cbn [grown]; [|reflexivity]. destruct (r <=? be_txn a); reflexivity.
  - cbn [grown]. rewrite E4 by discriminate. reflexivity.
  - cbn [grown]. rewrite E4 by discriminate. reflexivity.
Qed.

Lemma binv_add s l ok m' r : binv s -> b_fl s = None -> rstep farith order (b_m s) (RAlter (AkAdd l) ok) = (m', r) -> binv (with_m m' s).
Proof.
  intros B NF H. pose proof B as [R IF BD Q IN BN FI V FU CN PR]. pose proof R as [[GL GN GR] RN RA RS RC RR].
  cbn [rstep] in H. destruct (alter_cases order order_perm _ _ _ _ _ GL H) as [(-> & _)|(-> & AL & ES & LO & PK & PT & PF)].
  { destruct s; exact B. }
  destruct AL as (fs & NM & FR & LF & SD). set (m := b_m s) in *.
  assert (CN' : col_names (m_lay m') = col_names (m_lay m) ++ map fst fs).
  { unfold col_names. rewrite LF, PK, map_app, filter_app. f_equal.
    assert (INP : In (lo_pk (m_lay m)) (map fst (lo_fields (m_lay m)))).
    { destruct GL as (_ & _ & f & G & _). apply (aget_some_key _ bseq_eq) in G. exact G. }
    assert (X : forall c, In c (map fst fs) -> c <> lo_pk (m_lay m)).
    { intros c Hc ->. apply (FR _ Hc). exact INP. }
    clear -X. induction (map fst fs) as [|c cs IH]; [reflexivity|]. cbn [filter].
    destruct (bseq c (lo_pk (m_lay m))) eqn:E; [apply bseq_eq in E; elim (X c); [left; reflexivity|exact E]|].
    cbn [negb]. rewrite IH; [reflexivity|]. intros y Hy. apply X. right. exact Hy. }
  set (x := length fs).
  assert (NC : ncols m' = (ncols m + x)%nat). { unfold ncols. rewrite CN', app_length, map_length. reflexivity. }
  assert (OB : m_objs m' = m_objs m) by (rewrite ES; reflexivity).
  assert (IX : m_idx m' = m_idx m) by (rewrite ES; reflexivity).
  assert (QU : m_queue m' = m_queue m) by (rewrite ES; reflexivity).
  assert (QS : m_qsize m' = m_qsize m) by (rewrite ES; reflexivity).
  assert (DV : m_dver m' = m_dver m) by (rewrite ES; reflexivity).
  assert (IFF : m_iffy m' = m_iffy m) by (rewrite ES; reflexivity).
  assert (RCG : forall i o, nth_error (m_objs m) i = Some o -> row_cells (m_lay m') (ro_fields o) = row_cells (m_lay m) (ro_fields o) ++ repeat CNull x).
  { intros i o E. specialize (RC _ _ E). rewrite !row_cells_val, CN', map_app. f_equal. unfold x.
    assert (X : forall c, In c (map fst fs) -> val (ro_fields o) c = CNull).
    { intros c Hc. unfold val. destruct (aget bseq c (ro_fields o)) eqn:G; [|reflexivity]. exfalso.
      apply (aget_some_key _ bseq_eq) in G. apply RC in G. apply col_names_in in G. apply (FR c Hc). tauto. }
    clear -X. induction fs as [|[c f] fs IH]; [reflexivity|]. cbn [map fst length repeat]. f_equal; [apply X; left; reflexivity|].
    apply IH. intros y Hy. apply X. right. exact Hy. }
  assert (PG : Forall2 (ev_grow (ncols m) x) (pend m) (pend m')).
  { unfold pend. rewrite QU. rewrite Forall_forall in Q. clear -Q OB RCG. induction (m_queue m) as [|d q IH]; [constructor|].
    cbn [flat_map]. apply Forall2_app; [|apply IH; intros y Hy; apply Q; right; exact Hy].
    unfold pend1. rewrite OB. destruct (nth_error (m_objs m) (dd_row d)) as [o|] eqn:EO; [|constructor].
    destruct (dd_kind d).
    - constructor; [|constructor]. split; [reflexivity|]. split; [reflexivity|]. split; [reflexivity|]. intros X. elim X. reflexivity.
    - destruct (dd_ver d <? ro_rev o); constructor; [|constructor]. split; [reflexivity|]. split; [reflexivity|]. split; [reflexivity|].
      intros _. cbn [be_cells]. rewrite (RCG _ _ EO). rewrite !pad_id; [reflexivity|apply row_cells_len|].
      rewrite app_length, row_cells_len, repeat_length. reflexivity.
    - destruct (dd_ver d <? ro_rev o); constructor; [|constructor]. split; [reflexivity|]. split; [reflexivity|]. split; [reflexivity|].
      intros _. cbn [be_cells]. rewrite (RCG _ _ EO). rewrite !pad_id; [reflexivity|apply row_cells_len|].
      rewrite app_length, row_cells_len, repeat_length. reflexivity. }
  assert (WG : Forall2 (ev_grow (ncols m) x) (written s) (written s)).
  { unfold fits in FI. clear -FI. induction FI as [|a es HA HF IH]; [constructor|]. constructor; [|exact IH].
    split; [reflexivity|]. split; [reflexivity|]. split; [reflexivity|]. intros P. apply pad_more. apply HA, P. }
  assert (VG : forall k, view m' k = grown x (view m k)).
  { intros k. unfold view. rewrite IX, OB. destruct (aget pkey_eqb k (m_idx m)) as [i|]; [|reflexivity].
    destruct (nth_error (m_objs m) i) as [o|] eqn:EO; [|reflexivity]. cbn [grown]. rewrite (RCG _ _ EO). reflexivity. }
  assert (SUB : incl (col_names (m_lay m)) (col_names (m_lay m'))) by (rewrite CN'; apply incl_appl, incl_refl).
  constructor; unfold with_m, claimed in *; cbn [b_m b_file b_fl b_bad b_tasks] in *.
  - rewrite DV. constructor.
    + constructor; rewrite ?IX, ?OB; auto.
    + intros i o E. rewrite OB in E. eapply RN; eauto.
    + rewrite SD. apply Forall_app. split; [exact RA|]. apply Forall_forall. intros d Hd. apply in_map_iff in Hd as (c & <- & _). exact Logic.I.
    + intros f Hf. rewrite SD in Hf. apply in_app_iff in Hf as [Hf|Hf]; [apply SUB, RS, Hf|].
      apply in_map_iff in Hf as (c & E & Hc). inversion E; subst. rewrite CN', NM. apply in_app_iff. right. exact Hc.
    + intros i o E. rewrite OB in E. eapply incl_tran; [eapply RC; eauto|exact SUB].
    + intros i o E. rewrite OB in E. eapply RR; eauto.
  - congruence.
  - exact BD.
  - rewrite QU, OB. exact Q.
  - rewrite QU. exact IN.
  - rewrite QU, DV. exact BN.
  - rewrite NC. eapply Forall_impl; [|exact FI]. cbn. intros e P HP. specialize (P HP). lia.
  - intros k. rewrite NC, VG, <- V. change None with (grown x None) at 1. apply kfold_grow. apply Forall2_app; [exact WG|exact PG].
  - intros SD0. rewrite SD in SD0. apply app_eq_nil in SD0 as [SD1 SD2].
    assert (fs = []). { destruct fs as [|a fs]; [reflexivity|]. destruct l; [discriminate NM|discriminate SD2]. }
    subst fs. destruct (FU SD1) as [F1 F2]. rewrite NC. unfold x. cbn [length]. rewrite Nat.add_0_r. split; [|exact F2].
    intros i o E. rewrite OB in E. rewrite CN', app_nil_r. apply (F1 _ _ E).
  - rewrite QU, QS. exact CN.
  - exact PR.
Qed.

Lemma binv_alter_no s k ok m' r : binv s -> rstep farith order (b_m s) (RAlter k ok) = (m', r) -> r <> RoOk -> binv (with_m m' s).
Proof.
  intros B H NO. pose proof (bi_r _ B) as R. cbn [rstep] in H.
  destruct (alter_cases order order_perm _ _ _ _ _ (gi_lay _ (rinv_ginv _ _ R)) H) as [(-> & _)|(-> & _)]; [destruct s; exact B|congruence].
Qed.
End Steps.

(** * The flusher *)

Lemma sumN_app a b : sumN (a ++ b) = sumN a + sumN b.
Proof. induction a as [|x a IH]; cbn [app sumN fold_right] in *; [reflexivity|]. unfold sumN in *. lia. Qed.
Lemma sumN_del i : forall ts n, nth_error ts i = Some n -> sumN ts = n + sumN (del_nth i ts).
Proof.
  unfold del_nth. induction i as [|i IH]; intros [|x ts] n H; try discriminate.
  - cbn in H. inversion H; subst. reflexivity.
  - cbn [nth_error] in H. cbn [firstn app]. change (skipn (S (S i)) (x :: ts)) with (skipn (S i) ts).
    cbn [sumN fold_right]. specialize (IH ts n H). unfold sumN in *. lia.
Qed.

(** one change taken off the queue *)
Lemma flush_one_ok m d q t m2 : rinv m t -> m_queue m = d :: q ->
  (exists o, nth_error (m_objs m) (dd_row d) = Some o /\ (dd_kind d <> DkDelete -> dd_ver d <= ro_rev o)) ->
  forall res, flush_one (set_queue q (m_qsize m) m) d = (m2, res) -> res <> SrUb ->
  soft (set_queue q (m_qsize m) m) m2 /\
  match res with
  | SrSkip => pend1 m d = []
  | SrEv e => pend1 m d = [e] /\ be_txn e = dd_ver d /\ (is_put e -> length (be_cells e) = ncols m)
  | SrUb => False
  end.
Proof.
  intros R EQ (o & EO & HV) res H NU. unfold flush_one in H. cbn [m_objs m_lay m_sd set_queue] in H. rewrite EO in H.
  unfold pend1. rewrite EO.
  assert (SR : soft (set_queue q (m_qsize m) m) (set_objs (upd_nth (dd_row d) (resolve (m_sd m) o) (m_objs m)) (set_queue q (m_qsize m) m))).
  { assert (R' : rinv (set_queue q (m_qsize m) m) t) by (destruct R as [[? ? ?] ? ? ? ? ?]; constructor; auto; constructor; auto).
    apply (soft_resolve _ _ _ _ R' EO). }
  assert (CR : row_cells (m_lay m) (ro_fields (resolve (m_sd m) o)) = row_cells (m_lay m) (ro_fields o)) by (apply cells_resolve, R).
  assert (LC : length (row_cells (m_lay m) (ro_fields o)) = ncols m) by apply row_cells_len.
  destruct (dd_kind d) eqn:EK.
  - destruct (ro_key o); inversion H; subst; try congruence; (split; [apply soft_refl|]);
      (split; [reflexivity|]); (split; [reflexivity|]); intros X; elim X; reflexivity.
  - destruct (dd_ver d <? ro_rev o); [inversion H; subst; split; [apply soft_refl|reflexivity]|]. cbv zeta in H.
    rewrite CR in H. destruct (ro_key o); inversion H; subst; try congruence; (split; [exact SR|]); cbn [be_txn be_cells]; auto.
  - destruct (dd_ver d <? ro_rev o); [inversion H; subst; split; [apply soft_refl|reflexivity]|]. cbv zeta in H.
    rewrite CR in H. destruct (ro_key o); inversion H; subst; try congruence; (split; [exact SR|]); cbn [be_txn be_cells]; auto.
Qed.

Section Flush.
Context {PA : past}.
Variable farith : aop -> N -> N -> N.
Variable order : fieldmap -> fieldmap.
Hypothesis order_perm : forall l, Permutation (order l) l.

Lemma pend1_queue m q n d : pend1 (set_queue q n m) d = pend1 m d.
Proof. reflexivity. Qed.

Lemma binv_step s s' r : binv s -> bstep farith order s (BStep WoOk) = (s', r) -> r <> BoUb -> binv s'.
Proof.
  intros B H NU. cbn [bstep] in H. destruct (b_fl s) as [f|] eqn:EF; [|inversion H; subst; exact B].
  destruct (N.leb_spec (fl_want f) (fl_i f)) as [LE|LT]; [inversion H; subst; exact B|].
  destruct (m_queue (b_m s)) as [|d q] eqn:EQ; [inversion H; subst; exact B|]. cbv zeta in H.
  destruct (flush_one (set_queue q (m_qsize (b_m s)) (b_m s)) d) as [m2 res] eqn:EO.
  pose proof B as [R IF BD Q IN BN FI V FU CN PR]. rewrite EQ in Q. inversion Q as [|? ? Q1 Q2]; subst.
  assert (NRU : res <> SrUb) by (intros ->; inversion H; subst; congruence).
  destruct (flush_one_ok _ _ _ _ _ R EQ Q1 res EO NRU) as [S RES].
  set (m1 := set_queue q (m_qsize (b_m s)) (b_m s)) in *.
  assert (PM : pend (b_m s) = pend1 (b_m s) d ++ pend m1) by (unfold pend; rewrite EQ; reflexivity).
  assert (MAIN : forall evs, evs = fl_evs f ++ pend1 (b_m s) d -> Forall (fun e => is_put e -> length (be_cells e) = ncols (b_m s)) (pend1 (b_m s) d) ->
     txns (pend1 (b_m s) d) = [] \/ txns (pend1 (b_m s) d) = [dd_ver d] ->
     binv (mk_bst m2 (b_file s) (b_tasks s) (Some (mk_fl (fl_want f) (fl_i f + 1) (fl_tag f) (fl_schema f) (fl_cols f) evs)) (b_torn s) (b_bad s))).
  { intros evs EV LEN TX.
    enough (X : binv (mk_bst m1 (b_file s) (b_tasks s) (Some (mk_fl (fl_want f) (fl_i f + 1) (fl_tag f) (fl_schema f) (fl_cols f) evs)) (b_torn s) (b_bad s))).
    { apply (binv_soft _ m2) in X; [exact X|exact S]. }
    assert (W : written (mk_bst m1 (b_file s) (b_tasks s) (Some (mk_fl (fl_want f) (fl_i f + 1) (fl_tag f) (fl_schema f) (fl_cols f) evs)) (b_torn s) (b_bad s)) = written s ++ pend1 (b_m s) d).
    { unfold written, flying. cbn [b_file b_fl fl_evs]. rewrite EF, EV. apply app_assoc. }
    assert (WF : fresh (mk_bst m1 (b_file s) (b_tasks s) (Some (mk_fl (fl_want f) (fl_i f + 1) (fl_tag f) (fl_schema f) (fl_cols f) evs)) (b_torn s) (b_bad s)) = fresh s ++ pend1 (b_m s) d).
    { unfold fresh, later, flying. cbn [b_file b_fl fl_evs]. rewrite EF, EV. apply app_assoc. }
    assert (INC : incr (pa_t PA) (txns (fresh s ++ pend1 (b_m s) d) ++ map dd_ver q) /\
                  bound (pa_t PA) (txns (fresh s ++ pend1 (b_m s) d) ++ map dd_ver q) <= m_dver (b_m s)).
    { rewrite EQ in IN, BN. cbn [map] in IN, BN. unfold txns in *. rewrite map_app. destruct TX as [-> | ->].
      - rewrite app_nil_r. destruct (incr_drop _ _ _ _ IN). split; [assumption|lia].
      - rewrite <- app_assoc. cbn [app]. auto. }
    constructor; rewrite ?W, ?WF; cbn [b_m b_bad]; try assumption.
    - destruct R as [[? ? ?] ? ? ? ? ?]. constructor; auto. constructor; auto.
    - apply INC. - apply INC.
    - apply Forall_app. split; [exact FI|]. eapply Forall_impl; [|exact LEN]. cbn. intros e X P. rewrite (X P). unfold ncols. cbn. lia.
    - intros k. rewrite <- app_assoc, <- PM. apply V.
    - intros SD. destruct (FU SD) as [F1 F2]. split; [exact F1|]. apply Forall_app. split; [exact F2|exact LEN].
    - unfold claimed in *. rewrite EF, EQ in CN. cbn [length b_tasks b_fl fl_want fl_i m_queue m_qsize set_queue m1] in *. lia. }
  destruct res as [|e|]; [| |congruence].
  - inversion H; subst. apply MAIN; rewrite RES; [rewrite app_nil_r; reflexivity|constructor|left; reflexivity].
  - destruct RES as (E1 & E2 & E3). inversion H; subst. apply MAIN; rewrite E1; [reflexivity|constructor; [exact E3|constructor]|].
    right. cbn [txns map]. rewrite E2. reflexivity.
Qed.

Lemma restart_ok s : binv s -> b_fl s = None ->
  exists m, bstep farith order s BRestart = (mk_bst m (b_file s) [] None false false, BoDone) /\
    m_lay m = m_lay (b_m s) /\ m_sd m = m_sd (b_m s) /\ m_queue m = [] /\ m_qsize m = 0 /\ m_iffy m = false /\
    rinv m (bound (pa_t PA) (txns (evs_of (later s)))) /\
    (forall k, view m k = kfold (ncols (b_m s)) k (evs_of (b_file s)) None) /\
    (m_sd (b_m s) = [] -> full m) /\
    (tail_live (b_file s) -> bound (pa_t PA) (txns (evs_of (later s))) <= m_dver m).
Proof.
  intros B NF. pose proof B as [R IF BD Q IN BN FI V FU CN PR]. destruct PR as (rest & PR). cbn [bstep]. rewrite NF, BD.
  assert (W : written s = evs_of (b_file s)) by (unfold written, flying; rewrite NF; apply app_nil_r). rewrite W in *.
  assert (WF : fresh s = evs_of rest) by (unfold fresh, flying; rewrite NF, (later_app _ _ PR); apply app_nil_r). rewrite WF in *.
  rewrite (later_app _ _ PR). apply incr_app in IN as [IN _].
  assert (EA : evs_of (b_file s) = evs_of (pa_bs PA) ++ evs_of rest) by (rewrite PR; unfold evs_of; rewrite map_app; apply concat_app).
  rewrite EA in FI. apply Forall_app in FI as [FI1 FI2].
  destruct (pa_ok PA _ _ R FI1) as (m0 & E0 & R0 & L0 & SD0 & Q0 & QS0 & IF0 & V0 & FU0 & DV0).
  assert (FI2' : fits (length (col_names (m_lay m0))) (evs_of rest)) by (rewrite L0; exact FI2).
  destruct (apply_batches_ok rest m0 (pa_t PA) R0 IN FI2')
    as (m & EM & R' & L & SD & Q' & QS & IF' & V' & FU' & DV & NE).
  rewrite PR, apply_batches_app, E0, EM.
  exists m. split; [reflexivity|]. split; [congruence|]. split; [congruence|]. split; [congruence|]. split; [congruence|].
  split; [congruence|]. split; [exact R'|]. split; [|split].
  - intros k. rewrite V', V0, L0, <- PR, EA, kfold_app. reflexivity.
  - intros S. destruct (FU S) as [F1 F2]. rewrite EA in F2. apply Forall_app in F2 as [F2 F3].
    apply FU'; [congruence|apply FU0; assumption|rewrite L0; exact F3].
  - intros T. destruct rest as [|x rest] using rev_ind.
    + rewrite (NE eq_refl). cbn [evs_of map concat txns bound]. apply DV0. rewrite app_nil_r in T. exact T.
    + clear IHrest. rewrite (DV rest x eq_refl). destruct (ba_evs x) eqn:EX; [|lia].
      destruct T as [T|(l & b & T & HB)].
      * rewrite <- PR, EA in T. apply app_eq_nil in T as [T1 T2]. rewrite T2. cbn [txns map bound]. apply (pa_e PA), T1.
      * rewrite app_assoc in T. apply app_inj_tail in T as [_ ->]. congruence.
Qed.

Lemma binv_restart s s' r : binv s -> bstep farith order s BRestart = (s', r) -> tail_live (b_file s) -> binv s'.
Proof.
  intros B H TL. destruct (b_fl s) as [f|] eqn:EF.
  { cbn [bstep] in H. rewrite EF in H. inversion H; subst. exact B. }
  destruct (restart_ok s B EF) as (m & E & L & SD & Q & QS & IF & R & V & FU & DV). rewrite E in H. inversion H; subst.
  pose proof B as [R0 IF0 BD0 Q0 IN BN FI V0 FU0 CN PR].
  assert (W : written s = evs_of (b_file s)) by (unfold written, flying; rewrite EF; apply app_nil_r). rewrite W in *.
  assert (WF : fresh s = evs_of (later s)) by (unfold fresh, flying; rewrite EF; apply app_nil_r). rewrite WF in *.
  apply incr_app in IN as [IN _].
  assert (W' : written (mk_bst m (b_file s) [] None false false) = evs_of (b_file s)) by (apply app_nil_r).
  assert (WF' : fresh (mk_bst m (b_file s) [] None false false) = evs_of (later s)) by (apply app_nil_r).
  constructor; rewrite ?W', ?WF'; cbn [b_m b_bad]; auto.
  - eapply rinv_mono; [exact R|]. apply DV, TL.
  - rewrite Q. constructor.
  - rewrite Q. cbn [map]. rewrite app_nil_r. exact IN.
  - rewrite Q. cbn [map]. rewrite app_nil_r. apply DV, TL.
  - unfold ncols in *. rewrite L. exact FI.
  - intros k. unfold pend. rewrite Q. cbn [flat_map]. rewrite app_nil_r, V. unfold ncols. rewrite L. reflexivity.
  - intros S. rewrite SD in S. split; [apply FU, S|]. unfold ncols in *. rewrite L. apply (FU0 S).
  - rewrite Q, QS. reflexivity.
Qed.

Lemma binv_take s s' r : binv s -> bstep farith order s BTake = (s', r) -> binv s'.
Proof.
  intros B H. pose proof B as [R IF BD Q IN BN FI V FU CN PR]. cbn [bstep] in H. inversion H; subst.
  constructor; unfold fresh, later, written, flying, claimed, ncols in *; cbn [b_m b_file b_fl b_bad b_tasks m_queue m_qsize m_dver set_queue m_lay m_sd m_objs m_iffy] in *; try assumption.
  - destruct R as [[? ? ?] ? ? ? ? ?]. constructor; auto. constructor; auto.
  - rewrite sumN_app. cbn [sumN fold_right]. lia.
Qed.
Lemma binv_begin s i s' r : binv s -> bstep farith order s (BBegin i) = (s', r) -> binv s'.
Proof.
  intros B H. pose proof B as [R IF BD Q IN BN FI V FU CN PR]. cbn [bstep] in H.
  destruct (b_fl s) as [f|] eqn:EF; [inversion H; subst; exact B|].
  destruct (nth_error (b_tasks s) i) as [n|] eqn:EN; [|inversion H; subst; exact B]. cbv zeta in H. rewrite IF in H.
  pose proof (sumN_del _ _ _ EN) as SD.
  unfold fresh, later, written, flying, claimed in *; rewrite EF in *.
  destruct (N.eqb_spec n 0) as [->|NZ]; inversion H; subst;
  constructor; unfold fresh, later, written, flying, claimed, ncols in *; cbn [b_m b_file b_fl b_bad b_tasks fl_evs fl_want fl_i] in *; try assumption; lia.
Qed.
Lemma binv_end s s' r : binv s -> bstep farith order s (BEnd WoOk) = (s', r) -> binv s'.
Proof.
  intros B H. pose proof B as [R IF BD Q IN BN FI V FU CN PR]. cbn [bstep] in H.
  destruct (b_fl s) as [f|] eqn:EF; [|inversion H; subst; exact B].
  destruct (N.ltb_spec (fl_i f) (fl_want f)) as [LT|LE]; [inversion H; subst; exact B|]. inversion H; subst.
  assert (W : written (mk_bst (b_m s) (b_file s ++ [mk_batch (fl_want f) (fl_tag f) (fl_schema f) (fl_cols f) (fl_evs f)]) (b_tasks s) None (b_torn s) (b_bad s)) = written s).
  { unfold written, flying, evs_of. cbn [b_file b_fl]. rewrite EF, map_app, concat_app. cbn [map concat ba_evs]. rewrite !app_nil_r. reflexivity. }
  assert (PR2 : exists rest, b_file s ++ [mk_batch (fl_want f) (fl_tag f) (fl_schema f) (fl_cols f) (fl_evs f)] = pa_bs PA ++ rest).
  { destruct PR as (rest & ->). eexists. rewrite <- app_assoc. reflexivity. }
  assert (WF : fresh (mk_bst (b_m s) (b_file s ++ [mk_batch (fl_want f) (fl_tag f) (fl_schema f) (fl_cols f) (fl_evs f)]) (b_tasks s) None (b_torn s) (b_bad s)) = fresh s).
  { apply (app_inv_head (evs_of (pa_bs PA))). rewrite <- (written_fresh s PR), <- W. symmetry. apply written_fresh. exact PR2. }
  constructor; rewrite ?W, ?WF; cbn [b_m b_bad]; try assumption.
  unfold claimed in *. rewrite EF in CN. cbn [b_tasks b_fl]. lia.
Qed.
Lemma binv_recover s s' r : binv s -> bstep farith order s BRecover = (s', r) -> binv s'.
Proof.
  intros B H. pose proof B as [R IF BD Q IN BN FI V FU CN PR]. cbn [bstep] in H.
  destruct (b_fl s) as [f|] eqn:EF; [inversion H; subst; exact B|]. destruct (b_torn s); inversion H; subst; [exact B|].
  assert (E : set_iffy false (b_m s) = b_m s) by (destruct (b_m s); cbn in *; subst; reflexivity). rewrite E.
  constructor; unfold fresh, later, written, flying, claimed in *; cbn [b_m b_file b_fl b_bad b_tasks] in *; rewrite EF in *; assumption.
Qed.

Lemma binv_new lay : lay_ok lay -> @binv no_past (bst_new lay).
Proof.
  intros LO. constructor; cbn; auto; try lia.
  - constructor; cbn; auto; try (intros i o E; destruct i; discriminate); [|intros f []].
    constructor; cbn; auto; [constructor|]. intros k i G. discriminate.
  - constructor.
  - intros _. split; [intros i o E; destruct i; discriminate|constructor].
  - exists []. reflexivity.
Qed.

(** the histories considered: no failed write, refused UPDATEs of the kind that leaves the row alone
    (C20), ALTER MODEL ADD only, restarts only with an empty queue or when the last batch holds a change *)
Definition calm (s : bst) (o : bop) (r : bout) : Prop :=
  match o with
  | BStmt (RInsert d) => data_ok d
  | BStmt (RUpdate w asg) => r = BoStmt RoOk \/
      (r <> BoStmt RoPanic /\ NoDup (map as_lhs asg) /\ Forall (fun a => ~ is_append (lo_fields (m_lay (b_m s))) a) asg)
  | BStmt (RAlter (AkAdd _) _) => True
  | BStmt (RAlter _ _) => r <> BoStmt RoOk
  | BStep w | BEnd w => w = WoOk
  | BRestart => m_queue (b_m s) = [] \/ tail_live (b_file s)
  | _ => True
  end.

Inductive calm_hist (lay : layout) : list (bop * bout) -> bst -> Prop :=
| ch_nil : calm_hist lay [] (bst_new lay)
| ch_snoc h s o s' r : calm_hist lay h s -> bstep farith order s o = (s', r) -> calm s o r ->
    r <> BoUb -> r <> BoStmt RoUb -> calm_hist lay (h ++ [(o, r)]) s'.

(** the newest queued change is never stale, so that the last batch holds a change once all is flushed *)
Definition lastok (s : bst) : Prop :=
  (forall q d o, m_queue (b_m s) = q ++ [d] -> nth_error (m_objs (b_m s)) (dd_row d) = Some o -> dd_kind d <> DkDelete -> ro_rev o <= dd_ver d) /\
  (m_queue (b_m s) = [] -> match b_fl s with None => tail_live (b_file s) | Some f => fl_evs f <> [] end).

Lemma upd_nth_rev i o o' (l : list rowobj) : nth_error l i = Some o -> ro_rev o' = ro_rev o ->
  forall j x, nth_error (upd_nth i o' l) j = Some x -> exists y, nth_error l j = Some y /\ ro_rev x = ro_rev y.
Proof.
  intros E R j x H. destruct (Nat.eq_dec j i) as [->|NE].
  - rewrite (nth_upd_same _ _ _ _ E) in H. inversion H; subst. eauto.
  - rewrite nth_upd_other in H by congruence. eauto.
Qed.
Lemma scan_revs lay sd cols ids : forall objs j x, nth_error (fst (scan_rows lay sd cols ids objs)) j = Some x ->
  exists y, nth_error objs j = Some y /\ ro_rev x = ro_rev y.
Proof.
  induction ids as [|i ids IH]; intros objs j x H; cbn [scan_rows] in H; [eauto|].
  destruct (nth_error objs i) as [o|] eqn:E; [|eauto].
  pose proof (IH (upd_nth i (resolve sd o) objs)) as IH'.
  assert (Z : exists y, nth_error (upd_nth i (resolve sd o) objs) j = Some y /\ ro_rev x = ro_rev y).
  { revert H. cbv zeta. destruct (read_cols_all _ _ _ _); cbn [fst]; eauto.
    destruct (scan_rows lay sd cols ids (upd_nth i (resolve sd o) objs)) as [ob r] eqn:ES.
    try rewrite ES in IH'. cbn [fst] in *. intros H. apply IH'. exact H. }
  destruct Z as (y & Y & R). destruct (upd_nth_rev i o (resolve sd o) objs E (resolve_rev sd o) j y Y) as (z & Z & R2).
  exists z. split; [exact Z|congruence].
Qed.

(** what a statement does to the queue *)
Lemma rstep_tail m q m' r : rstep farith order m q = (m', r) ->
  (m_queue m' = m_queue m /\ forall i x, nth_error (m_objs m') i = Some x -> exists y, nth_error (m_objs m) i = Some y /\ ro_rev x = ro_rev y) \/
  exists d, m_queue m' = m_queue m ++ [d] /\ (dd_kind d <> DkDelete -> forall o, nth_error (m_objs m') (dd_row d) = Some o -> ro_rev o <= dd_ver d).
Proof.
  assert (SAME : forall x : mst, m_queue x = m_queue m -> m_objs x = m_objs m ->
    m_queue x = m_queue m /\ forall i y, nth_error (m_objs x) i = Some y -> exists z, nth_error (m_objs m) i = Some z /\ ro_rev y = ro_rev z).
  { intros x H1 H2. rewrite H2. split; [exact H1|]. eauto. }
  intros H. destruct q as [d|w asg|w|w cols|cols limit|ak ok]; cbn [rstep] in H.
  - unfold exec_insert in H. destruct (m_iffy m); [left; inversion H; subst; apply SAME; reflexivity|].
    destruct (prepare_insert _ _) as [[pk rw]| |]; [|left; inversion H; subst; apply SAME; reflexivity|left; inversion H; subst; apply SAME; reflexivity].
    cbv zeta in H. destruct (aget pkey_eqb pk _); [left; inversion H; subst; apply SAME; reflexivity|].
    right. apply pair_equal_spec in H as [<- <-]. eexists. split; [reflexivity|]. intros _ o E.
    cbn [enqueue set_queue set_idx set_objs m_objs dd_row dd_ver] in *. rewrite nth_error_app2 in E by apply le_n.
    rewrite Nat.sub_diag in E. cbn [nth_error] in E. inversion E; subst. apply N.le_refl.
  - unfold exec_update in H. destruct (m_iffy m); [left; inversion H; subst; apply SAME; reflexivity|].
    destruct (resolve_where _ _) as [x|]; [|left; inversion H; subst; apply SAME; reflexivity].
    destruct (aget pkey_eqb _ _) as [oid|]; [|left; inversion H; subst; apply SAME; reflexivity].
    destruct (nth_error (m_objs m) oid) as [o|] eqn:EO; [|left; inversion H; subst; apply SAME; reflexivity].
    cbv zeta in H. destruct (update_row _ _ _ _) as [f r0].
    assert (BAD : forall r1, (set_objs (upd_nth oid (with_fields f o) (m_objs (bump_dver m))) (bump_dver m), r1) = (m', r) ->
      m_queue m' = m_queue m /\ forall i x, nth_error (m_objs m') i = Some x -> exists y, nth_error (m_objs m) i = Some y /\ ro_rev x = ro_rev y).
    { intros r1 X. apply pair_equal_spec in X as [<- <-]. split; [reflexivity|]. cbn [set_objs m_objs bump_dver set_dver].
      intros i y Y. apply (upd_nth_rev oid o (with_fields f o) (m_objs m) EO eq_refl i y Y). }
    destruct r0; try (left; eapply BAD; exact H).
    right. apply pair_equal_spec in H as [<- <-]. eexists. split; [reflexivity|]. intros _ o1 E.
    cbn [enqueue set_queue set_idx set_objs m_objs dd_row dd_ver bump_dver set_dver] in *.
    rewrite (nth_upd_same _ _ _ _ EO) in E. inversion E; subst. apply N.le_refl.
  - unfold exec_delete in H. destruct (m_iffy m); [left; inversion H; subst; apply SAME; reflexivity|].
    cbv zeta in H. destruct (resolve_where _ _) as [x|]; [|left; inversion H; subst; apply SAME; reflexivity].
    destruct (aget pkey_eqb _ _) as [oid|]; [|left; inversion H; subst; apply SAME; reflexivity].
    right. apply pair_equal_spec in H as [<- <-]. eexists. split; [reflexivity|]. cbn [dd_kind]. congruence.
  - left. unfold exec_select in H. destruct (resolve_where _ _) as [x|]; [|inversion H; subst; apply SAME; reflexivity].
    destruct (aget pkey_eqb _ _) as [oid|]; [|inversion H; subst; apply SAME; reflexivity].
    destruct (nth_error (m_objs m) oid) as [o|] eqn:EO; [|inversion H; subst; apply SAME; reflexivity].
    cbv zeta in H. assert (X : m' = set_objs (upd_nth oid (resolve (m_sd m) o) (m_objs m)) m) by (destruct (read_cols _ _ _ _); inversion H; reflexivity).
    rewrite X. split; [reflexivity|]. intros i y Y. exact (upd_nth_rev oid o _ (m_objs m) EO (resolve_rev _ _) i y Y).
  - left. unfold exec_select_all in H. cbv zeta in H. match type of H with (if ?b then _ else _) = _ => destruct b end; [inversion H; subst; apply SAME; reflexivity|].
    match type of H with (let '(a, b) := ?X in _) = _ => destruct X as [objs r0] eqn:ES end.
    apply pair_equal_spec in H as [<- _]. split; [reflexivity|]. cbn [set_objs m_objs]. intros i x Hx.
    match type of ES with scan_rows ?a ?b ?c ?d ?e = _ => pose proof (scan_revs a b c d e i x) as SR end.
    rewrite ES in SR. apply SR. exact Hx.
  - left. unfold exec_alter in H. cbv zeta in H. destruct (fdeltas _ _ _) as [[e|[nl a]]|]; try (inversion H; subst; apply SAME; reflexivity).
    destruct (negb nl); [inversion H; subst; apply SAME; reflexivity|].
    destruct a; try (inversion H; subst; apply SAME; reflexivity); (destruct ok; inversion H; subst; apply SAME; reflexivity).
Qed.

Lemma lastok_any s o s' r : binv s -> lastok s -> bstep farith order s o = (s', r) -> calm s o r -> r <> BoUb -> r <> BoPanic -> lastok s'.
Proof.
  intros B [K1 K2] H C NU NP. destruct o as [q| |i|w|w| |].
  - assert (ST : forall m' r0, rstep farith order (b_m s) q = (m', r0) -> s' = with_m m' s -> lastok s').
    { intros m' r0 E ->. destruct (rstep_tail _ _ _ _ E) as [[Q R]|(d & Q & R)]; unfold lastok; cbn [with_m b_m b_fl b_file]; rewrite Q.
      - split; [|exact K2]. intros q0 d o EQ EO KD. destruct (R _ _ EO) as (y & Y & ->). eapply K1; eauto.
      - split; [|intros X; apply app_eq_nil in X as [_ X]; discriminate X].
        intros q0 d0 o EQ EO KD. apply app_inj_tail in EQ as [_ <-]. apply R; auto. }
    cbn [bstep] in H. destruct (rstep farith order (b_m s) q) as [m' r0] eqn:E.
    destruct q; try (apply pair_equal_spec in H as [<- <-]; eapply ST; eauto).
    destruct (b_fl s) eqn:EF; [inversion H; subst; split; [exact K1|rewrite EF; exact K2]|].
    apply pair_equal_spec in H as [<- <-]. eapply ST; eauto. unfold with_m. rewrite EF. reflexivity.
  - cbn [bstep] in H. inversion H; subst. split; [exact K1|exact K2].
  - cbn [bstep] in H. destruct (b_fl s) eqn:EF; [inversion H; subst; split; [exact K1|rewrite EF; exact K2]|].
    destruct (nth_error (b_tasks s) i) as [n|] eqn:EN; [|inversion H; subst; split; [exact K1|rewrite EF; exact K2]].
    cbv zeta in H. destruct (m_iffy (b_m s)); [inversion H; subst; split; [exact K1|exact K2]|].
    destruct (n =? 0) eqn:EZ; inversion H; subst; (split; [exact K1|]); [exact K2|]. cbn [b_m b_fl]. intros Q.
    pose proof (bi_cnt _ B) as CN. rewrite Q in CN. unfold claimed in CN. rewrite (sumN_del _ _ _ EN) in CN.
    apply N.eqb_neq in EZ. cbn [length] in CN. clear -CN EZ. exfalso. lia.
  - cbn [calm] in C. subst w. cbn [bstep] in H. destruct (b_fl s) as [f|] eqn:EF; [|inversion H; subst; split; [exact K1|rewrite EF; exact K2]].
    destruct (fl_want f <=? fl_i f); [inversion H; subst; split; [exact K1|rewrite EF; exact K2]|].
    destruct (m_queue (b_m s)) as [|d q] eqn:EQ; [inversion H; subst; congruence|].
    pose proof (bi_q _ B) as Q. rewrite EQ in Q. inversion Q as [|? ? Q1 Q2]; subst.
    destruct (flush_one (set_queue q (m_qsize (b_m s)) (b_m s)) d) as [m2 res] eqn:EO.
    assert (NRU : res <> SrUb) by (intros ->; inversion H; subst; congruence).
    destruct (flush_one_ok _ _ _ _ _ (bi_r _ B) EQ Q1 res EO NRU) as [S _].
    assert (QQ : m_queue m2 = q) by (rewrite (so_queue _ _ S); reflexivity).
    assert (P1 : forall q0 d0 o, m_queue m2 = q0 ++ [d0] -> nth_error (m_objs m2) (dd_row d0) = Some o -> dd_kind d0 <> DkDelete -> ro_rev o <= dd_ver d0).
    { intros q0 d0 o Eq Eo KD. rewrite QQ in Eq. destruct (soft_back _ _ _ _ S Eo) as (o1 & O1 & _ & R1 & _).
      rewrite R1. apply (K1 (d :: q0) d0 o1); auto. cbn [app]. congruence. }
    assert (P2 : m_queue m2 = [] -> exists e, res = SrEv e).
    { intros Eq. destruct res as [|e|]; [|eauto|congruence]. exfalso.
      destruct Q1 as (o & O & _). unfold flush_one in EO. cbn [set_queue m_objs m_sd m_lay] in EO. rewrite O in EO.
      assert (K3 : dd_kind d <> DkDelete -> ro_rev o <= dd_ver d).
      { apply (K1 [] d o); [|exact O]. cbn [app]. f_equal. rewrite <- Eq. symmetry. exact QQ. }
      destruct (dd_kind d) eqn:EK.
      - destruct (ro_key o); discriminate EO.
      - assert (X : (dd_ver d <? ro_rev o) = false) by (apply N.ltb_ge, K3; discriminate). rewrite X in EO. destruct (ro_key o); discriminate EO.
      - assert (X : (dd_ver d <? ro_rev o) = false) by (apply N.ltb_ge, K3; discriminate). rewrite X in EO. destruct (ro_key o); discriminate EO. }
    destruct res as [|e|]; [| |congruence]; inversion H; subst; (split; [exact P1|]); cbn [b_m b_fl fl_evs]; intros Eq.
    + destruct (P2 Eq). discriminate.
    + intros X. apply app_eq_nil in X as [_ X]. discriminate X.
  - cbn [calm] in C. subst w. cbn [bstep] in H. destruct (b_fl s) as [f|] eqn:EF; [|inversion H; subst; split; [exact K1|rewrite EF; exact K2]].
    destruct (_ <? _); inversion H; subst; (split; [exact K1|]); [rewrite EF; exact K2|]. cbn [b_m b_fl b_file]. intros Q.
    right. do 2 eexists. split; [reflexivity|]. cbn [ba_evs]. apply K2, Q.
  - cbn [bstep] in H. destruct (b_fl s) eqn:EF; [inversion H; subst; split; [exact K1|rewrite EF; exact K2]|].
    destruct (b_torn s); inversion H; subst; (split; [exact K1|]); [rewrite EF|]; exact K2.
  - destruct (b_fl s) eqn:EF; [cbn [bstep] in H; rewrite EF in H; inversion H; subst; split; [exact K1|rewrite EF; exact K2]|].
    destruct (restart_ok s B EF) as (m & E & L & SD & Q & _). rewrite E in H. inversion H; subst.
    split; cbn [b_m b_fl b_file]; rewrite Q; [intros q0 d0 o X; destruct q0; discriminate X|]. intros _.
    cbn [calm] in C. destruct C as [C|C]; [apply K2, C|exact C].
Qed.
Lemma lastok_new lay : lastok (bst_new lay).
Proof. split; [intros q d o E; destruct q; discriminate E|]. intros _. left. reflexivity. Qed.

Lemma binv_any s o s' r : binv s -> lastok s -> bstep farith order s o = (s', r) -> calm s o r -> r <> BoUb -> r <> BoStmt RoUb -> binv s'.
Proof.
  intros B K H C NU NU2. destruct o as [q| |i|w|w| |].
  - assert (ST : forall m' r0, rstep farith order (b_m s) q = (m', r0) -> r = BoStmt r0 -> s' = with_m m' s ->
       (match q with RAlter _ _ => b_fl s = None | _ => True end) -> binv s').
    { intros m' r0 E -> -> NF. destruct q as [d|w asg|w|w cols|cols limit|ak ok]; cbn [calm] in C.
      - eapply binv_insert; eauto.
      - eapply binv_update; eauto. destruct C as [C|(C1 & C2 & C3)]; [left; congruence|right].
        split; [congruence|]. split; [congruence|auto].
      - eapply binv_delete; eauto.
      - eapply binv_select; eauto.
      - eapply binv_select_all; eauto.
      - destruct ak; [eapply binv_add; eauto| |]; (eapply binv_alter_no; eauto; congruence). }
    cbn [bstep] in H. destruct (rstep farith order (b_m s) q) as [m' r0] eqn:E.
    destruct q; try (apply pair_equal_spec in H as [<- <-]; eapply ST; eauto).
    destruct (b_fl s) eqn:EF; [inversion H; subst; exact B|].
    apply pair_equal_spec in H as [<- <-]. eapply ST; eauto. unfold with_m. rewrite EF. reflexivity.
  - eapply binv_take; eauto.
  - eapply binv_begin; eauto.
  - cbn [calm] in C. subst w. eapply binv_step; eauto.
  - cbn [calm] in C. subst w. eapply binv_end; eauto.
  - eapply binv_recover; eauto.
  - cbn [calm] in C. destruct (b_fl s) eqn:EF.
    + cbn [bstep] in H. rewrite EF in H. inversion H; subst. exact B.
    + eapply binv_restart; eauto. destruct C as [C|C]; [|exact C]. destruct K as [_ K]. rewrite EF in K. apply K, C.
Qed.
(** a flush never meets an empty queue, a reload never fails its assertion *)
Lemma no_panic s o s' r : binv s -> bstep farith order s o = (s', r) -> calm s o r -> r <> BoPanic.
Proof.
  intros B H C ->. destruct o as [q| |i|w|w| |]; cbn [bstep] in H.
  - destruct (rstep farith order (b_m s) q). destruct q; try discriminate H. destruct (b_fl s); discriminate H.
  - discriminate H.
  - destruct (b_fl s); [discriminate H|]. destruct (nth_error _ _); [|discriminate H]. cbv zeta in H. destruct (m_iffy _); [discriminate H|].
    destruct (_ =? _); discriminate H.
  - cbn [calm] in C. subst w. destruct (b_fl s) as [f|] eqn:EF; [|discriminate H].
    destruct (fl_want f <=? fl_i f) eqn:EW; [discriminate H|]. destruct (m_queue (b_m s)) as [|d q] eqn:EQ.
    + pose proof (bi_cnt _ B) as CN. rewrite EQ in CN. unfold claimed in CN. rewrite EF in CN. apply N.leb_gt in EW. cbn [length] in CN.
      clear -CN EW. lia.
    + destruct (flush_one _ _) as [m2 []]; discriminate H.
  - cbn [calm] in C. subst w. destruct (b_fl s); [|discriminate H]. destruct (_ <? _); discriminate H.
  - destruct (b_fl s); [discriminate H|]. destruct (b_torn s); discriminate H.
  - destruct (b_fl s) eqn:EF; [discriminate H|]. destruct (restart_ok s B EF) as (m & E & _). cbn [bstep] in E. rewrite EF in E.
    rewrite E in H. discriminate H.
Qed.
(** the same histories, from any state *)
Inductive calm_from (s0 : bst) : list (bop * bout) -> bst -> Prop :=
| cf_nil : calm_from s0 [] s0
| cf_snoc h s o s' r : calm_from s0 h s -> bstep farith order s o = (s', r) -> calm s o r ->
    r <> BoUb -> r <> BoStmt RoUb -> calm_from s0 (h ++ [(o, r)]) s'.
Lemma calm_from_inv s0 h s : binv s0 -> lastok s0 -> calm_from s0 h s -> binv s /\ lastok s.
Proof.
  intros B0 K0 H. induction H as [|h s o s' r H IH HS C N1 N2]; [auto|].
  destruct IH as [B K]. pose proof (no_panic _ _ _ _ B HS C) as NP. split; [eapply binv_any; eauto|eapply lastok_any; eauto].
Qed.
End Flush.
#[global] Existing Instance no_past.

Section Flush0.
Variable farith : aop -> N -> N -> N.
Variable order : fieldmap -> fieldmap.
Hypothesis order_perm : forall l, Permutation (order l) l.
Lemma calm_inv lay h s : lay_ok lay -> calm_hist farith order lay h s -> binv s /\ lastok s.
Proof.
  intros LO H. induction H as [|h s o s' r H IH HS C N1 N2]; [split; [apply binv_new; exact LO|apply lastok_new]|].
  destruct IH as [B K]. pose proof (no_panic farith order _ _ _ _ B HS C) as NP. split; [eapply binv_any; eauto|eapply lastok_any; eauto].
Qed.
Lemma calm_binv lay h s : lay_ok lay -> calm_hist farith order lay h s -> binv s.
Proof. intros LO H. apply (calm_inv lay h s LO H). Qed.
End Flush0.
