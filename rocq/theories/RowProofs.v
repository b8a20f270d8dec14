(** Proofs about typing and INSERT (RowModel.v against RowSpec.v). *)
From Coq Require Import List NArith ZArith Bool Lia Permutation.
From Verif Require Import Bytes AMap DataModel CodecModel CodecProofs GnsCodecModel GnsModel GnsProofs RowModel RowSpec.
Import ListNotations.
Local Open Scope N_scope.

(** * Ranges *)

Lemma pow_consts :
  2 ^ 8 = 256 /\ 2 ^ 16 = 65536 /\ 2 ^ 32 = 4294967296 /\ 2 ^ 63 = 9223372036854775808 /\
  2 ^ 64 = 18446744073709551616.
Proof. repeat split; vm_compute; reflexivity. Qed.
Lemma zpow_consts :
  (2 ^ 7 = 128 /\ 2 ^ 8 = 256 /\ 2 ^ 15 = 32768 /\ 2 ^ 16 = 65536 /\ 2 ^ 31 = 2147483648 /\ 2 ^ 32 = 4294967296 /\
   2 ^ 63 = 9223372036854775808 /\ 2 ^ 64 = 18446744073709551616)%Z.
Proof. repeat split; vm_compute; reflexivity. Qed.
Ltac consts :=
  let a := fresh in let b := fresh in let c := fresh in let d := fresh in let e := fresh in
  destruct pow_consts as (a & b & c & d & e); rewrite ?a, ?b, ?c, ?d, ?e in *; clear a b c d e;
  let a := fresh in let b := fresh in let c := fresh in let d := fresh in let e := fresh in
  let a1 := fresh in let b1 := fresh in let c1 := fresh in
  destruct zpow_consts as (a & b & c & d & e & a1 & b1 & c1);
  rewrite ?a, ?b, ?c, ?d, ?e, ?a1, ?b1, ?c1 in *; clear a b c d e a1 b1 c1.

Lemma s64_sval w : s64 w = sval w.
Proof. unfold s64, sval. consts. reflexivity. Qed.

Lemma spec_check_iff q w : spec_check q w = true <-> in_range q w.
Proof.
  unfold spec_check, in_range; rewrite !s64_sval. generalize (sval w). intros z.
  destruct q; rewrite ?andb_true_iff, ?N.leb_le, ?Z.leb_le; consts; lia.
Qed.

(** * Values *)

Lemma qsel_class_not_list q : tsel_class (qsel_tsel q) <> TcList.
Proof. destruct q; discriminate. Qed.

Lemma word_class_num c k : tclass_eqb k (cell_class c) = true -> (k = TcUInt \/ k = TcSInt \/ k = TcFloat) ->
  exists q w, c = CQw q w /\ tsel_class (qsel_tsel q) = k.
Proof.
  intros H K. apply tclass_eqb_eq in H. subst k. unfold cell_class in *.
  destruct c; cbn [cell_sel tsel_class] in *; try (destruct K as [K | [K | K]]; discriminate).
  eauto.
Qed.

Lemma vmap_ok {A B} (f : A -> vr B) l ys : vmap f l = VOk ys -> Forall2 (fun x y => f x = VOk y) l ys.
Proof.
  revert ys. induction l as [|x l IH]; cbn; intros ys H; [inversion H; constructor|].
  destruct (f x) eqn:E; try discriminate. destruct (vmap f l) eqn:E2; try discriminate.
  inversion H; subst. constructor; auto.
Qed.
Lemma vmap_complete {A B} (f : A -> vr B) l : (forall x, In x l -> exists y, f x = VOk y) ->
  exists ys, vmap f l = VOk ys.
Proof.
  induction l as [|x l IH]; cbn; intros H; [eauto|].
  destruct (H x (or_introl eq_refl)) as [y ->]. destruct IH as [ys ->]; eauto.
Qed.

Lemma rvt_cons t rest c : rvt (t :: rest) c =
  match tsel_class t, c with
  | TcList, CList xs =>
      match vmap (rvt rest) xs with VOk ys => VOk (CList ys) | VNo => VNo | VPanic => VPanic end
  | k, _ => if tclass_eqb k (cell_class c) then vtfn k t c else VNo
  end.
Proof. reflexivity. Qed.

Lemma retag_cons_num t ls q w : retag (t :: ls) (CQw q w) =
  CQw (match tsel_qsel t with Some q' => q' | None => q end) w.
Proof. destruct t; reflexivity. Qed.

Lemma rvt_ok ls : layers_ok ls -> forall c c', no_null c = true -> rvt ls c = VOk c' ->
  typed ls c' /\ fits ls c /\ c' = retag ls c.
Proof.
  induction 1 as [t Ht|ls HL IH]; intros c c' HN H.
  - rewrite rvt_cons in H.
    assert (HB : (if tclass_eqb (tsel_class t) (cell_class c) then vtfn (tsel_class t) t c else VNo) = VOk c').
    { destruct t; try exact H. congruence. }
    clear H. destruct (tclass_eqb _ _) eqn:E; [|discriminate].
    destruct c as [|b|q w|b|b|xs]; try discriminate HN.
    + destruct t; try discriminate E. inversion HB. repeat split; constructor.
    + destruct (tsel_qsel t) as [q'|] eqn:EQ.
      * assert (spec_check q' w = true /\ c' = CQw q' w).
        { unfold vtfn in HB. rewrite EQ in HB.
          destruct t; try discriminate EQ; cbn [tsel_class] in HB;
            destruct (spec_check q' w); inversion HB; auto. }
        destruct H as [HC ->]. apply spec_check_iff in HC.
        rewrite retag_cons_num, EQ. apply tsel_qsel_some in EQ. subst t.
        split; [constructor; auto|]. split; [|reflexivity].
        constructor; auto. apply tclass_eqb_eq in E. exact E.
      * destruct t; try discriminate EQ; destruct q; discriminate E.
    + destruct t; try discriminate E. inversion HB. repeat split; constructor.
    + destruct t; try discriminate E. inversion HB. repeat split; constructor.
    + destruct t; try discriminate E. congruence.
  - rewrite rvt_cons in H. cbn [tsel_class] in H.
    destruct c as [|b|q w|b|b|xs]; try discriminate; try (destruct q; discriminate).
    destruct (vmap (rvt ls) xs) as [ys| |] eqn:E; try discriminate. inversion H; subst c'.
    apply vmap_ok in E. cbn [no_null] in HN. rewrite forallb_forall in HN.
    assert (F : Forall2 (fun x y => typed ls y /\ fits ls x /\ y = retag ls x) xs ys).
    { clear H. induction E; constructor.
      - apply IH; auto. apply HN. left; auto.
      - apply IHE. intros x0 Hx0. apply HN. right; auto. }
    clear E HN H. split; [|split].
    + constructor. intros y Hy. induction F; [destruct Hy|]. destruct Hy as [<- | Hy]; [tauto|auto].
    + constructor. intros y Hy. induction F; [destruct Hy|]. destruct Hy as [<- | Hy]; [tauto|auto].
    + cbn [retag]. f_equal. induction F; cbn; [reflexivity|]. destruct H as (_ & _ & ->). congruence.
Qed.

Lemma rvt_complete ls : layers_ok ls -> forall c, fits ls c -> exists c', rvt ls c = VOk c'.
Proof.
  induction 1 as [t Ht|ls HL IH]; intros c H; inversion H; subst; try congruence.
  - cbn. eauto.
  - cbn. eauto.
  - cbn. eauto.
  - match goal with A : same_class q q', B : in_range q w |- _ => rename A into HS; rename B into HR end.
    rewrite rvt_cons.
    assert (HB : exists c', (if tclass_eqb (tsel_class (qsel_tsel q)) (cell_class (CQw q' w))
              then vtfn (tsel_class (qsel_tsel q)) (qsel_tsel q) (CQw q' w) else VNo) = VOk c').
    { rewrite (proj2 (tclass_eqb_eq _ _)) by exact HS.
      unfold vtfn. rewrite qsel_tsel_qsel, (proj2 (spec_check_iff q w) HR). destruct q; eexists; reflexivity. }
    destruct q; exact HB.
  - inversion HL.
  - rewrite rvt_cons. cbn [tsel_class].
    destruct (vmap_complete (rvt ls) xs) as [ys ->]; [|eauto].
    intros x Hx. apply IH. unfold fits. auto.
Qed.

Lemma fits_not_null ls c : fits ls c -> no_null c = true.
Proof.
  induction 1; try reflexivity. cbn. apply forallb_forall. auto.
Qed.

(** ** One value against one field *)

Lemma vt_ok f c c' : layers_ok (f_layers f) -> arg_ok c -> vt f c = VOk c' ->
  accepts_typed f c' /\ accepts f c /\ c' = retag (f_layers f) c.
Proof.
  intros HL HA H. unfold vt in H. destruct (f_layers f) as [|t rest] eqn:EL; [inversion HL|].
  destruct (cell_init c) eqn:EI.
  - assert (HN : no_null c = true) by (destruct HA as [-> | ?]; [discriminate|auto]).
    assert (R : rvt (t :: rest) c = VOk c').
    { cbn [negb] in H. rewrite orb_false_r in H. destruct rest; [|exact H].
      rewrite andb_false_r, andb_true_r, orb_false_l in H.
      destruct (tclass_eqb (tsel_class t) (cell_class c)) eqn:E; cbn [negb] in H; [|discriminate].
      inversion HL; subst; [|inversion H1].
      rewrite rvt_cons.
      assert (HB : (if tclass_eqb (tsel_class t) (cell_class c) then vtfn (tsel_class t) t c else VNo) = VOk c').
      { rewrite E. rewrite (proj1 (tclass_eqb_eq _ _) E). exact H. }
      destruct t; try exact HB. congruence. }
    destruct (rvt_ok _ HL _ _ HN R) as (T & F & E). unfold accepts_typed, accepts. rewrite EL. auto.
  - destruct c; try discriminate. cbn [negb] in H. rewrite orb_true_r in H.
    rewrite andb_true_r, andb_false_r, orb_false_r in H.
    destruct (f_null f) eqn:EN; cbn [negb] in H; [|discriminate].
    cbn in H. inversion H; subst. unfold accepts_typed, accepts.
    split; [auto|]. split; [auto|]. destruct t; destruct rest; reflexivity.
Qed.

Lemma vt_complete f c : layers_ok (f_layers f) -> accepts f c -> exists c', vt f c = VOk c'.
Proof.
  intros HL HA. unfold vt. destruct (f_layers f) as [|t rest] eqn:EL; [inversion HL|].
  destruct HA as [[-> HN]|HF].
  - cbn [cell_init negb]. rewrite orb_true_r, HN, andb_false_r. eexists; reflexivity.
  - rewrite EL in HF. destruct (rvt_complete _ HL _ HF) as [c' R].
    assert (EI : cell_init c = true) by (inversion HF; reflexivity).
    rewrite EI. cbn [negb]. rewrite orb_false_r, andb_false_r, andb_true_r, orb_false_l.
    destruct rest as [|t2 rest]; [|eauto].
    rewrite rvt_cons in R. inversion HL; subst; [|inversion H0].
    assert (RB : (if tclass_eqb (tsel_class t) (cell_class c) then vtfn (tsel_class t) t c else VNo) = VOk c').
    { destruct t; try exact R. congruence. }
    destruct (tclass_eqb (tsel_class t) (cell_class c)) eqn:E; [|discriminate]. cbn [negb].
    apply tclass_eqb_eq in E. rewrite <- E. eauto.
Qed.

Lemma vt_no_panic f c : layers_ok (f_layers f) -> arg_ok c -> vt f c <> VPanic.
Proof.
  intros HL HA. assert (RV : forall ls, layers_ok ls -> forall c, rvt ls c <> VPanic).
  { assert (VF : forall k t c, vtfn k t c <> VPanic).
    { intros k t c0. unfold vtfn. destruct k; try discriminate;
        destruct (tsel_qsel t); try discriminate; destruct c0; try discriminate; destruct (spec_check _ _); discriminate. }
    induction 1 as [t Ht|ls Hls IH]; intros c0; rewrite rvt_cons.
    - assert (HB : (if tclass_eqb (tsel_class t) (cell_class c0) then vtfn (tsel_class t) t c0 else VNo) <> VPanic).
      { destruct (tclass_eqb _ _); [apply VF|discriminate]. }
      destruct t; try exact HB. congruence.
    - cbn [tsel_class]. destruct c0; try (destruct (tclass_eqb _ _); [apply VF|discriminate]).
      assert (V : vmap (rvt ls) l <> VPanic).
      { induction l as [|x l IHl]; cbn; [discriminate|].
        destruct (rvt ls x) eqn:E; try discriminate; [|exfalso; eapply IH; eauto].
        destruct (vmap (rvt ls) l); try discriminate. congruence. }
      destruct (vmap (rvt ls) l); congruence. }
  unfold vt. destruct (f_layers f) eqn:EL; [inversion HL|].
  destruct (_ || _); [|apply RV; auto].
  destruct (_ || _); [discriminate|].
  unfold vtfn. destruct (cell_class c); try discriminate;
    destruct (tsel_qsel t); try discriminate; destruct c; try discriminate; destruct (spec_check _ _); discriminate.
Qed.

(** * INSERT *)

(** what the parser guarantees about the data of an INSERT: no null inside lists, and a map has each
    name once (ql/dml/ins.rs) *)
Definition data_ok (d : insdata) : Prop :=
  match d with
  | InsTuple t => Forall arg_ok t
  | InsMap m => NoDup (map fst m) /\ Forall (fun kv => arg_ok (snd kv)) m
  end.

Lemma rf_insert_fresh k c m : ~ In k (akeys m) -> rf_insert k c m = (m ++ [(k, c)], true).
Proof.
  intros H. unfold rf_insert. rewrite (proj2 (aget_none _ bseq_eq k m) H). reflexivity.
Qed.

Lemma akeys_app {K V} (a b : list (K * V)) : akeys (a ++ b) = akeys a ++ akeys b.
Proof. unfold akeys. apply map_app. Qed.

(** the positional loop *)
Lemma ins_tuple_ok fs : Forall (fun kv => layers_ok (f_layers (snd kv))) fs ->
  forall t acc r, NoDup (akeys acc ++ map fst fs) -> length t = length fs -> Forall arg_ok t ->
  ins_tuple fs t acc = VOk r ->
  Forall2 (fun kf c => accepts (snd kf) c) fs t /\
  r = acc ++ map (fun kfc => (fst (fst kfc), retag (f_layers (snd (fst kfc))) (snd kfc))) (combine fs t).
Proof.
  induction 1 as [|[k f] fs HL HF IH]; intros t acc r ND LEN HA H.
  - destruct t; [|discriminate]. cbn in H. inversion H. rewrite app_nil_r. split; constructor.
  - destruct t as [|c t]; [discriminate|]. cbn [ins_tuple] in H. cbn in LEN.
    inversion HA; subst. cbn [snd] in HL.
    destruct (vt f c) as [c'| |] eqn:EV; try discriminate.
    destruct (vt_ok _ _ _ HL H2 EV) as (_ & A & ->).
    cbn [map fst] in ND. apply NoDup_remove in ND as [ND NI].
    rewrite rf_insert_fresh in H by (intros X; apply NI; apply in_app_iff; auto).
    apply IH in H; auto.
    + destruct H as [F ->]. split; [constructor; auto|].
      cbn [combine map fst snd]. rewrite <- app_assoc. reflexivity.
    + rewrite akeys_app. cbn [akeys map fst]. rewrite <- app_assoc. cbn [app].
      eapply Permutation_NoDup; [apply Permutation_middle|]. constructor; auto.
Qed.

Lemma ins_tuple_complete fs : Forall (fun kv => layers_ok (f_layers (snd kv))) fs ->
  forall t acc, NoDup (akeys acc ++ map fst fs) -> Forall2 (fun kf c => accepts (snd kf) c) fs t ->
  exists r, ins_tuple fs t acc = VOk r.
Proof.
  induction 1 as [|[k f] fs HL HF IH]; intros t acc ND F; inversion F; subst; cbn [ins_tuple]; [eauto|].
  cbn [snd] in *. destruct (vt_complete _ _ HL H1) as [c' ->].
  cbn [map fst] in ND. apply NoDup_remove in ND as [ND NI].
  rewrite rf_insert_fresh by (intros X; apply NI; apply in_app_iff; auto).
  apply IH; auto. rewrite akeys_app. cbn [akeys map fst]. rewrite <- app_assoc. cbn [app].
  eapply Permutation_NoDup; [apply Permutation_middle|]. constructor; auto.
Qed.

(** the layers of a declared column *)
Definition layers_of (fs : fieldmap) (k : bytes) : list tsel :=
  match aget bseq k fs with Some f => f_layers f | None => [] end.

Lemma ins_map_ok fs : Forall (fun kv => layers_ok (f_layers (snd kv))) fs ->
  forall m acc n r n', NoDup (akeys acc ++ map fst m) -> Forall (fun kv => arg_ok (snd kv)) m ->
  ins_map fs m acc n = VOk (r, n') ->
  Forall (fun kv => exists f, aget bseq (fst kv) fs = Some f /\ accepts f (snd kv)) m /\
  n' = n + N.of_nat (length m) /\
  r = acc ++ map (fun kv => (fst kv, retag (layers_of fs (fst kv)) (snd kv))) m.
Proof.
  intros HF. rewrite Forall_forall in HF.
  induction m as [|[k c] m IH]; intros acc n r n' ND HA H; cbn [ins_map] in H.
  - inversion H; subst. rewrite app_nil_r. cbn. rewrite N.add_0_r. split; auto.
  - inversion HA; subst. unfold f_get in H. destruct (aget bseq k fs) as [f|] eqn:EG; [|discriminate].
    assert (HL : layers_ok (f_layers f)) by (apply aget_in in EG; [|apply bseq_eq]; apply (HF _ EG)).
    destruct (vt f c) as [c'| |] eqn:EV; try discriminate.
    destruct (vt_ok _ _ _ HL H2 EV) as (_ & A & ->).
    cbn [map fst] in ND. apply NoDup_remove in ND as [ND NI].
    rewrite rf_insert_fresh in H by (intros X; apply NI; apply in_app_iff; auto). cbn [fst] in H.
    apply IH in H; auto.
    + destruct H as (F & -> & ->). split; [constructor; eauto|]. split; [cbn [length]; lia|].
      cbn [map fst snd]. unfold layers_of at 2. rewrite EG. rewrite <- app_assoc. reflexivity.
    + rewrite akeys_app. cbn [akeys map fst]. rewrite <- app_assoc. cbn [app].
      eapply Permutation_NoDup; [apply Permutation_middle|]. constructor; auto.
Qed.

Lemma ins_map_complete fs : Forall (fun kv => layers_ok (f_layers (snd kv))) fs ->
  forall m acc n,
  Forall (fun kv => exists f, aget bseq (fst kv) fs = Some f /\ accepts f (snd kv)) m ->
  exists r, ins_map fs m acc n = VOk (r, n + N.of_nat (length m)).
Proof.
  intros HF. rewrite Forall_forall in HF.
  induction m as [|[k c] m IH]; intros acc n F; cbn [ins_map].
  - cbn. rewrite N.add_0_r. eauto.
  - inversion F; subst. destruct H1 as (f & EG & A). cbn [fst snd] in *. unfold f_get. rewrite EG.
    assert (HL : layers_ok (f_layers f)) by (apply aget_in in EG; [|apply bseq_eq]; apply (HF _ EG)).
    destruct (vt_complete _ _ HL A) as [c' ->].
    destruct (IH (fst (rf_insert k c' acc)) (n + 1) H2) as [r ->].
    exists r. cbn [length]. do 2 f_equal. lia.
Qed.

Lemma filter_map_fst {A B} (g : bytes * A -> bytes * B) (p : bytes -> bool) l : (forall x, fst (g x) = fst x) ->
  filter (fun kv => p (fst kv)) (map g l) = map g (filter (fun kv => p (fst kv)) l).
Proof.
  intros H. induction l as [|x l IH]; cbn; [reflexivity|]. rewrite H. destruct (p (fst x)); cbn; rewrite IH; reflexivity.
Qed.

Lemma aget_map_snd {A B} (g : bytes * A -> B) k (l : list (bytes * A)) :
  aget bseq k (map (fun kv => (fst kv, g kv)) l) =
  match aget bseq k l with Some v => Some (g (k, v)) | None => None end.
Proof.
  induction l as [|[k' v] l IH]; cbn; [reflexivity|]. destruct (bseq k k') eqn:E; [|exact IH].
  apply bseq_eq in E. subst. reflexivity.
Qed.

Lemma combine_declared (fs : fieldmap) : NoDup (map fst fs) -> forall t, length t = length fs ->
  map (fun kfc => (fst (fst kfc), retag (f_layers (snd (fst kfc))) (snd kfc))) (combine fs t) =
  map (fun kv => (fst kv, retag (layers_of fs (fst kv)) (snd kv))) (combine (map fst fs) t).
Proof.
  intros ND.
  assert (G : forall fs0, (forall kf, In kf fs0 -> aget bseq (fst kf) fs = Some (snd kf)) ->
    forall t, length t = length fs0 ->
    map (fun kfc => (fst (fst kfc), retag (f_layers (snd (fst kfc))) (snd kfc))) (combine fs0 t) =
    map (fun kv => (fst kv, retag (layers_of fs (fst kv)) (snd kv))) (combine (map fst fs0) t)).
  { induction fs0 as [|[k f] fs0 IH]; intros HI t LEN; [reflexivity|].
    destruct t as [|c t]; [discriminate|]. cbn [combine map fst snd]. f_equal.
    - unfold layers_of. pose proof (HI (k, f) (or_introl eq_refl)) as E. cbn [fst snd] in E.
      rewrite E. reflexivity.
    - apply IH; [intros; apply HI; right; auto|]. cbn in LEN. lia. }
  apply G. intros [k f] HI. apply in_aget; auto. apply bseq_eq.
Qed.

Lemma keys_combine (ks : list bytes) (t : list cell) : length t = length ks -> akeys (combine ks t) = ks.
Proof.
  revert t. induction ks as [|k ks IH]; intros [|c t] H; try discriminate; cbn; [reflexivity|].
  f_equal. apply IH. cbn in H. lia.
Qed.

Lemma forall2_supplied (fs : fieldmap) t : NoDup (map fst fs) ->
  Forall2 (fun kf c => accepts (snd kf) c) fs t ->
  forall k f, aget bseq k fs = Some f -> exists c, aget bseq k (combine (map fst fs) t) = Some c /\ accepts f c.
Proof.
  intros ND F. induction F as [|[k0 f0] c0 fs t A F IH]; intros k f G; [discriminate|].
  cbn [map fst snd combine aget] in *. destruct (bseq k k0) eqn:E; [inversion G; subst; eauto|].
  inversion ND; subst. auto.
Qed.

Lemma supplied_forall2 (fs : fieldmap) t : NoDup (map fst fs) -> length t = length fs ->
  (forall k f, aget bseq k fs = Some f -> exists c, aget bseq k (combine (map fst fs) t) = Some c /\ accepts f c) ->
  Forall2 (fun kf c => accepts (snd kf) c) fs t.
Proof.
  revert t. induction fs as [|[k f] fs IH]; intros [|c t] ND LEN H; try discriminate; constructor.
  - destruct (H k f) as (c0 & E & A); [cbn; rewrite bseq_refl; reflexivity|].
    cbn in E. rewrite bseq_refl in E. inversion E; subst. exact A.
  - inversion ND; subst. apply IH; auto. intros k' f' G.
    destruct (H k' f') as (c0 & E & A).
    { cbn. destruct (bseq k' k) eqn:E; [|exact G]. apply bseq_eq in E. subst.
      apply aget_some_key in G; [|apply bseq_eq]. contradiction. }
    cbn in E. destruct (bseq k' k) eqn:E2.
    + apply bseq_eq in E2. subst. apply aget_some_key in G; [|apply bseq_eq]. contradiction.
    + eauto.
Qed.

(** the key does not depend on the recorded width *)
Lemma cell_key_retag t c : tuniq_is_unique (tsel_uniq t) = true -> forall f, f_layers f = [t] -> accepts f c ->
  cell_key (retag [t] c) = cell_pkey c.
Proof.
  intros U f EL [[-> _]|F]; [destruct t; reflexivity|].
  rewrite EL in F. inversion F; subst; try reflexivity; try discriminate.
  rewrite retag_cons_num, qsel_tsel_qsel. unfold same_class in *.
  destruct q, q'; try reflexivity; discriminate.
Qed.

Lemma fits_class_unique t c : fits [t] c -> tuniq_is_unique (tsel_uniq t) = true -> cell_pkey c <> PkNull.
Proof.
  intros F U. inversion F; subst; try discriminate.
  unfold same_class in *. destruct q, q'; cbn; discriminate || discriminate.
Qed.

Definition all_of (lay : layout) (d : insdata) : rfields :=
  match d with InsTuple t => combine (map fst (lo_fields lay)) t | InsMap m => m end.

Lemma ins_row_adel lay d :
  ins_row lay d = adel bseq (lo_pk lay)
    (map (fun kv => (fst kv, retag (layers_of (lo_fields lay) (fst kv)) (snd kv))) (all_of lay d)).
Proof.
  unfold ins_row, adel.
  rewrite (filter_map_fst (fun kv => (fst kv, retag (layers_of (lo_fields lay) (fst kv)) (snd kv)))
             (fun k => negb (bseq (lo_pk lay) k))) by reflexivity.
  destruct d; reflexivity.
Qed.

Lemma prepare_ok lay d pk r : lay_ok lay -> data_ok d -> prepare_insert lay d = VOk (pk, r) ->
  conforming lay d /\ pk = ins_key lay d /\ r = ins_row lay d.
Proof.
  intros (ND & HL & fpk & GP & EP & UP) HD H.
  assert (B : exists b,
    match d with
    | InsTuple t => if N.of_nat (length t) =? N.of_nat (length (lo_fields lay))
                    then ins_tuple (lo_fields lay) t [] else VNo
    | InsMap m => if N.of_nat (length m) =? N.of_nat (length (lo_fields lay)) then
          match ins_map (lo_fields lay) m [] 0 with
          | VOk (r, n) => if n =? N.of_nat (length (lo_fields lay)) then VOk r else VNo
          | VNo => VNo
          | VPanic => VPanic
          end
        else VNo
    end = VOk b /\
    match aget bseq (lo_pk lay) b with
      | Some c => VOk (cell_key c, adel bseq (lo_pk lay) b)
      | None => VNo
      end = VOk (pk, r)).
  { unfold prepare_insert in H. cbv zeta in H.
    match type of H with match ?x with _ => _ end = _ => destruct x as [b| |] eqn:EB; try discriminate end.
    exists b. split; [reflexivity|exact H]. }
  clear H. destruct B as (b & HB & HK).
  assert (C : conforming lay d /\
    b = map (fun kv => (fst kv, retag (layers_of (lo_fields lay) (fst kv)) (snd kv))) (all_of lay d)).
  { destruct d as [t|m]; cbn [data_ok all_of] in *.
    - destruct (N.eqb_spec (N.of_nat (length t)) (N.of_nat (length (lo_fields lay)))) as [E|E]; [|discriminate].
      apply Nat2N.inj in E.
      destruct (ins_tuple_ok _ HL t [] b ND E HD HB) as [F ->].
      cbn [app]. rewrite combine_declared by auto. split; [|reflexivity].
      split; [exact E|]. cbn [supplied]. apply forall2_supplied; auto.
    - destruct HD as [NDM HA].
      destruct (N.eqb_spec (N.of_nat (length m)) (N.of_nat (length (lo_fields lay)))) as [E|E]; [|discriminate].
      apply Nat2N.inj in E.
      destruct (ins_map (lo_fields lay) m [] 0) as [[r0 n0]| |] eqn:EM; try discriminate.
      destruct (N.eqb_spec n0 (N.of_nat (length (lo_fields lay)))) as [E2|E2]; [|discriminate].
      inversion HB; subst r0.
      destruct (ins_map_ok _ HL m [] 0 b n0 NDM HA EM) as (F & _ & ->). split; [|reflexivity].
      assert (INC : forall k, In k (map fst m) <-> In k (map fst (lo_fields lay))).
      { assert (I1 : incl (map fst m) (map fst (lo_fields lay))).
        { intros k Hk. apply in_map_iff in Hk as ([k' c] & <- & Hin).
          rewrite Forall_forall in F. destruct (F _ Hin) as (f & G & _). cbn [fst] in *.
          apply aget_some_key in G; [exact G|apply bseq_eq]. }
        intros k. split; [apply I1|]. apply NoDup_length_incl; auto. rewrite !map_length. lia. }
      split; [split; auto|]. cbn [supplied]. intros k f G.
      assert (Hin : In k (map fst m)) by (apply INC; eapply aget_some_key; [apply bseq_eq|exact G]).
      apply in_map_iff in Hin as ([k' c] & EK & Hin). cbn [fst] in EK. subst k'.
      rewrite Forall_forall in F. destruct (F _ Hin) as (f' & G' & A). cbn [fst snd] in *.
      rewrite G in G'. inversion G'; subst f'. exists c. split; auto. apply in_aget; auto. apply bseq_eq. }
  destruct C as [C ->]. split; auto.
  rewrite aget_map_snd in HK. rewrite ins_row_adel.
  destruct C as [CS CF]. destruct (CF _ _ GP) as (c & ES & A).
  assert (EA : aget bseq (lo_pk lay) (all_of lay d) = Some c) by (destruct d; exact ES).
  rewrite EA in HK. inversion HK. split; [|reflexivity].
  unfold ins_key. rewrite ES. unfold layers_of. cbn [fst snd]. unfold f_get in GP. rewrite GP, EP.
  eapply cell_key_retag; eauto.
Qed.

Lemma prepare_complete lay d : lay_ok lay -> data_ok d -> conforming lay d ->
  prepare_insert lay d = VOk (ins_key lay d, ins_row lay d).
Proof.
  intros LO HD C. assert (EX : exists pk r, prepare_insert lay d = VOk (pk, r)).
  { destruct LO as (ND & HL & fpk & GP & EP & UP). destruct C as [CS CF].
    unfold prepare_insert. cbv zeta.
    assert (B : exists b,
      match d with
      | InsTuple t => if N.of_nat (length t) =? N.of_nat (length (lo_fields lay))
                      then ins_tuple (lo_fields lay) t [] else VNo
      | InsMap m => if N.of_nat (length m) =? N.of_nat (length (lo_fields lay)) then
            match ins_map (lo_fields lay) m [] 0 with
            | VOk (r, n) => if n =? N.of_nat (length (lo_fields lay)) then VOk r else VNo
            | VNo => VNo
            | VPanic => VPanic
            end
          else VNo
      end = VOk b /\ exists c, aget bseq (lo_pk lay) b = Some c).
    { destruct (CF _ _ GP) as (cp & ES & AP).
      destruct d as [t|m]; cbn [data_ok supplies_all supplied] in *.
      - rewrite CS, N.eqb_refl.
        destruct (ins_tuple_complete _ HL t [] ND (supplied_forall2 _ _ ND CS CF)) as [b EB].
        exists b. split; auto. destruct (ins_tuple_ok _ HL t [] b ND CS HD EB) as [_ ->].
        cbn [app]. rewrite combine_declared, aget_map_snd, ES by auto. eauto.
      - destruct CS as [NDM INC].
        assert (LEN : length m = length (lo_fields lay)).
        { rewrite <- (map_length fst m), <- (map_length fst (lo_fields lay)).
          apply Nat.le_antisymm; apply NoDup_incl_length; auto; intros k Hk; apply INC; auto. }
        rewrite LEN, N.eqb_refl.
        assert (F : Forall (fun kv => exists f, aget bseq (fst kv) (lo_fields lay) = Some f /\ accepts f (snd kv)) m).
        { apply Forall_forall. intros [k c] Hin. cbn [fst snd].
          assert (Hk : In k (map fst (lo_fields lay))) by (apply INC; apply in_map_iff; exists (k, c); auto).
          destruct (aget bseq k (lo_fields lay)) as [f|] eqn:G.
          - exists f. split; auto. destruct (CF _ _ G) as (c0 & E0 & A0).
            rewrite (in_aget _ bseq_eq k c m NDM Hin) in E0. inversion E0; subst. exact A0.
          - apply (aget_none _ bseq_eq) in G. contradiction. }
        destruct (ins_map_complete _ HL m [] 0 F) as [b EB]. rewrite EB, LEN, N.add_0_l, N.eqb_refl.
        exists b. split; auto.
        destruct (ins_map_ok _ HL m [] 0 b _ NDM (proj2 HD) EB) as (_ & _ & ->).
        cbn [app]. rewrite aget_map_snd, ES. eauto. }
    destruct B as (b & -> & c & ->). eauto. }
  destruct EX as (pk & r & E). destruct (prepare_ok _ _ _ _ LO HD E) as (_ & -> & ->). exact E.
Qed.

Lemma prepare_no_panic lay d : lay_ok lay -> data_ok d -> prepare_insert lay d <> VPanic.
Proof.
  intros (ND & HL & _) HD. unfold prepare_insert. cbv zeta.
  match goal with |- match ?x with _ => _ end <> _ => assert (NB : x <> VPanic) end.
  { destruct d as [t|m]; destruct (_ =? _); try discriminate; cbn [data_ok] in HD.
    - generalize (@nil (bytes * cell)). revert HD. generalize t. clear t ND.
      induction HL as [|[k f] fs Hf HL IH]; intros t HD acc; [discriminate|].
      destruct t as [|c t]; cbn [ins_tuple]; [discriminate|]. inversion HD; subst.
      destruct (vt f c) eqn:E; try discriminate.
      + destruct (rf_insert k a acc) as [acc' []]; [apply IH; auto|discriminate].
      + exfalso. eapply vt_no_panic; eauto.
    - assert (NM : forall acc n, ins_map (lo_fields lay) m acc n <> VPanic).
      { destruct HD as [_ HD]. rewrite Forall_forall in HL. induction HD as [|[k c] m Hc HD IH]; intros acc n; cbn [ins_map]; [discriminate|].
        unfold f_get. destruct (aget bseq k (lo_fields lay)) as [f|] eqn:G; [|discriminate].
        destruct (vt f c) eqn:E; try discriminate; [apply IH|].
        apply aget_in in G; [|apply bseq_eq]. exfalso. exact (vt_no_panic f c (HL _ G) Hc E). }
      specialize (NM [] 0). destruct (ins_map (lo_fields lay) m [] 0) as [[r n]| |]; try discriminate; [|congruence].
      destruct (_ =? _); discriminate. }
  destruct (match d with InsTuple t => _ | InsMap m => _ end) as [b| |]; try discriminate; [|congruence].
  destruct (aget bseq (lo_pk lay) b); discriminate.
Qed.
