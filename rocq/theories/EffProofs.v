(** The statements of GnsModel.v do what EffSpec.v says. *)
From Coq Require Import Strings.String List Arith NArith Bool Lia Permutation.
From Verif Require Import Bytes AMap DataModel CodecModel CodecProofs GnsCodecModel DictModel DictProofs DictProps TypeModel TypeProofs TypeProps GnsModel GnsProofs GnsHist EffSpec.
Import ListNotations.
Local Open Scope N_scope.

Lemma beq_bseq a b : beq a b = bseq a b.
Proof.
  unfold beq. destruct (list_eq_dec Byte.byte_eq_dec a b) as [->|H].
  - symmetry. apply bseq_refl.
  - symmetry. apply bseq_neq. exact H.
Qed.
Lemma ideq_ent a b : ideq a b = ent_eqb a b.
Proof. unfold ideq, ent_eqb. rewrite !beq_bseq. reflexivity. Qed.

(** ** Space options *)

Lemma create_space_props_spec props : dict_nd props ->
  match create_space_props props with
  | Some p => space_options props p
  | None => forall p, ~ space_options props p
  end.
Proof.
  intros ND. unfold create_space_props. destruct (dget KEY_ENV props) as [e|] eqn:E.
  - destruct (Nat.eqb (length props) 1) eqn:EL.
    + apply Nat.eqb_eq in EL. apply one_env in E; auto. subst props. destruct e as [c|m].
      * destruct (cell_init c) eqn:EC.
        { intros p H. inversion H; subst. discriminate. }
        apply cell_null in EC as ->. cbn. exact so_null.
      * cbn [flatten]. rewrite flat_entry_map. apply so_map. intros p.
        assert (NM : dict_nd m).
        { inversion ND as [|? _ F]; subst. inversion F; subst. exact H1. }
        rewrite (C44_flatten_exact m NM). destruct (look p (DMap m)) as [[c|]|]; try reflexivity.
        destruct (cell_init c) eqn:EC; [destruct c; try reflexivity; discriminate|].
        apply cell_null in EC as ->. reflexivity.
    + intros p H. inversion H; subst; cbn in EL; discriminate.
  - destruct props; [exact so_none|]. intros p0 H. inversion H; subst; unfold dget in E; cbn in E; discriminate.
Qed.

Lemma dget_put_env k e d : dget k (aput bseq KEY_ENV e d) = if bseq k KEY_ENV then Some e else dget k d.
Proof.
  unfold dget. destruct (bseq k KEY_ENV) eqn:E.
  - apply bseq_eq in E as ->. apply (aget_put_same bseq bseq_eq).
  - apply bseq_neq in E. apply (aget_put_other bseq bseq_eq). exact E.
Qed.

(** the new properties of ALTER SPACE *)
Lemma alter_props_spec cur e patch d : dict_nd [(KEY_ENV, e)] -> (e = DData CNull \/ exists m, e = DMap m) ->
  prepare_patch cur [(KEY_ENV, e)] = Some patch -> merge cur patch = Some d ->
  space_altered cur [(KEY_ENV, e)] (match dget KEY_ENV d with Some _ => d | None => aput bseq KEY_ENV (DMap []) d end).
Proof.
  intros ND HE HP HM. apply sa_env; [exact HE| |].
  { apply prepare_accepts; eauto. }
  destruct (prepare_merge _ _ _ ND HP) as (d0 & M0 & L). rewrite HM in M0. injection M0 as <-.
  intros p. change K_env with KEY_ENV. rewrite <- L.
  destruct p as [|k q]; [destruct (dget KEY_ENV d); reflexivity|].
  cbn [look]. destruct (dget KEY_ENV d) as [x|] eqn:ED.
  - destruct (dget k d) as [y|] eqn:EK; [destruct (look q y) eqn:EQ; [reflexivity|]|].
    + destruct q; [|reflexivity]. destruct y; discriminate EQ.
    + destruct q; [|reflexivity]. rewrite beq_bseq. destruct (bseq k KEY_ENV) eqn:EB; [|reflexivity].
      apply bseq_eq in EB as ->. congruence.
  - rewrite dget_put_env. rewrite beq_bseq. destruct (bseq k KEY_ENV) eqn:EB.
    + apply bseq_eq in EB as ->. rewrite ED. destruct q; reflexivity.
    + destruct (dget k d) as [y|]; [destruct (look q y); [reflexivity|]|]; destruct q; reflexivity.
Qed.

(** ** Field types *)

Lemma parse_layers_spec spec b : match parse_layers spec b with
  | Some f => f_null f = b /\ written_type spec (f_layers f)
  | None => forall layers, ~ written_type spec layers
  end.
Proof.
  destruct (parse_layers spec b) as [f|] eqn:E.
  - apply C45_field_type_exact in E as (n & t & HT & -> & ->). split; [reflexivity|]. exists n, t. auto.
  - intros layers (n & t & HT & -> & ->).
    assert (X : parse_layers (mk_ls (type_name t) [] :: repeat (mk_ls (bstr "list"%string) []) n) b =
      Some (mk_field b (repeat TsList n ++ [t]))).
    { apply C45_field_type_exact. exists n, t. auto. }
    congruence.
Qed.

Lemma key_type_spec t : tuniq_is_unique (tsel_uniq t) = true <-> key_type t.
Proof.
  unfold key_type. split.
  - destruct t; cbn; intros H; try discriminate H; tauto.
  - cbn. intros H. repeat (destruct H as [<-|H]; [reflexivity|]). contradiction.
Qed.

Lemma in_keys k (fs : fieldmap) : In k (map fst fs) <-> aget bseq k fs <> None.
Proof. pose proof (aget_none bseq bseq_eq k fs) as H. unfold akeys in H.
  destruct (aget bseq k fs); [|tauto]. split; [discriminate|]. intros _.
  destruct (in_dec (list_eq_dec Byte.byte_eq_dec) k (map fst fs)); [assumption|]. exfalso. 
  apply H in n. discriminate.
Qed.

(** ** CREATE MODEL *)

Definition col (x : field_spec) (kv : bytes * field) : Prop :=
  fst kv = fs_name x /\ f_null (snd kv) = fs_null x /\ written_type (fs_layers x) (f_layers (snd kv)).
Definition cols (l : list field_spec) (fs tail : fieldmap) : Prop :=
  NoDup (map fs_name l) /\ (forall x, In x l -> ~ In (fs_name x) (map fst fs)) /\ Forall2 col l tail /\
  (forall x, In x l -> fs_primary x = true -> fs_null x = false).

Lemma create_fields_spec l : forall fs pk cnt,
  match create_fields l fs pk cnt with
  | inl _ => forall tail, ~ cols l fs tail
  | inr (fs', pk', cnt') => exists tail, fs' = fs ++ tail /\ cols l fs tail /\
      cnt' = cnt + N.of_nat (length (filter fs_primary l)) /\
      (filter fs_primary l = [] -> pk' = pk) /\ (forall x, filter fs_primary l = [x] -> pk' = Some (fs_name x))
  end.
Proof.
  induction l as [|x l IH]; intros fs pk cnt; cbn [create_fields].
  { exists []. rewrite app_nil_r. split; [reflexivity|]. split.
    { repeat split; try constructor; intros ? []. }
    cbn. split; [lia|]. split; [auto|]. intros; discriminate. }
  destruct (if fs_primary x then _ else _) as [[pk1 cnt1] ok1] eqn:EP.
  pose proof (parse_layers_spec (fs_layers x) (fs_null x)) as PL.
  destruct (parse_layers (fs_layers x) (fs_null x)) as [f|].
  2:{ intros tail (_ & _ & F & _). inversion F as [|? ? ? ? C]; subst. destruct C as (_ & _ & C). exact (PL _ C). }
  destruct PL as [PN PL]. destruct (f_insert (fs_name x) f fs) as [fs1 ok2] eqn:EI.
  assert (NOTAIL : ok1 && ok2 = false -> forall tail, ~ cols (x :: l) fs tail).
  { intros EO tail (C1 & C2 & C3 & C4). apply andb_false_iff in EO as [->| ->].
    - destruct (fs_primary x) eqn:EX; [|inversion EP].
      rewrite (C4 x (or_introl eq_refl) EX) in EP. inversion EP.
    - unfold f_insert in EI. destruct (f_has (fs_name x) fs) eqn:EH; [|discriminate EI].
      apply f_has_in in EH. exact (C2 x (or_introl eq_refl) EH). }
  destruct (ok1 && ok2) eqn:EO; [|apply NOTAIL; reflexivity]. clear NOTAIL.
  apply andb_true_iff in EO as [-> ->]. apply f_insert_fresh in EI as [-> EF].
  assert (HN : fs_primary x = true -> fs_null x = false).
  { intros EX. rewrite EX in EP. destruct (fs_null x); [inversion EP|reflexivity]. }
  specialize (IH (fs ++ [(fs_name x, f)]) pk1 cnt1).
  destruct (create_fields l (fs ++ [(fs_name x, f)]) pk1 cnt1) as [b|[[fs' pk'] cnt']].
  - intros tail (C1 & C2 & C3 & C4). inversion C3 as [|? [k v] ? tl C C']; subst. inversion C1 as [|? ? C11 C12]; subst.
    apply (IH tl). split; [exact C12|]. split; [|split; [exact C'|intros y Hy; apply C4; right; exact Hy]].
    intros y Hy. rewrite map_app, in_app_iff. cbn [map fst In]. intros [Q|[Q|[]]].
    + exact (C2 y (or_intror Hy) Q).
    + apply C11. rewrite Q. apply in_map. exact Hy.
  - destruct IH as (tail & -> & (C1 & C2 & C3 & C4) & EC & EK0 & EK1). exists ((fs_name x, f) :: tail).
    rewrite <- app_assoc. split; [reflexivity|]. split.
    { split; [|split; [|split]].
      - cbn [map]. constructor; [|exact C1]. intros Q. apply in_map_iff in Q as (y & Q & Hy).
        apply (C2 y Hy). rewrite map_app, in_app_iff. right. left. symmetry. exact Q.
      - intros y [<-|Hy]; [exact EF|]. intros Q. apply (C2 y Hy). rewrite map_app, in_app_iff. left. exact Q.
      - constructor; [|exact C3]. split; [reflexivity|]. split; assumption.
      - intros y [<-|Hy]; [exact HN|]. apply C4. exact Hy. }
    cbn [filter]. destruct (fs_primary x) eqn:EX; inversion EP; subst.
    + cbn [length]. split; [lia|]. split; [discriminate|]. intros y Hy. inversion Hy; subst. auto.
    + split; [reflexivity|]. split; assumption.
Qed.

Lemma forall2_keys {A} (R : A -> bytes * field -> Prop) (nm : A -> bytes) l tail :
  (forall x kv, R x kv -> fst kv = nm x) -> Forall2 R l tail -> map fst tail = map nm l.
Proof. intros H F. induction F as [|x kv l tl HX F IH]; [reflexivity|]. cbn [map]. rewrite IH, (H _ _ HX). reflexivity. Qed.

Lemma written_layers_ok spec ls : written_type spec ls -> layers_ok ls.
Proof.
  intros (n & t & HT & -> & _). induction n as [|n IH]; cbn [repeat app]; constructor; auto.
Qed.

Lemma process_create_spec uuid fields props :
  match process_create_model uuid fields props with
  | inl e => In e [ErrType; ErrBadDef] /\ forall lay, ~ model_def uuid fields props lay
  | inr lay => model_def uuid fields props lay
  end.
Proof.
  unfold process_create_model.
  destruct props as [|p props].
  2:{ split; [cbn; tauto|]. intros lay (H & _). discriminate H. }
  destruct fields as [|f0 fields0].
  { split; [cbn; tauto|]. intros lay (_ & _ & _ & _ & [(x & H & _)|[_ H]] & _); discriminate H. }
  set (fields := f0 :: fields0) in *.
  pose proof (create_fields_spec fields [] None 0) as CF.
  destruct (create_fields fields [] None 0) as [b|[[fs pk] cnt]].
  { assert (NO : forall lay, ~ model_def uuid fields [] lay).
    { intros lay (_ & M1 & M2 & _ & M4 & _). apply (CF (lo_fields lay)).
      split; [exact M1|]. split; [intros ? ? []|]. split; [exact M2|].
      intros x Hx PX. assert (IX : In x (filter fs_primary fields)) by (apply filter_In; split; assumption).
      destruct M4 as [(y & E & N & _)|[E _]]; rewrite E in IX; [|contradiction]. destruct IX as [<-|[]]. exact N. }
    destruct b; split; auto; cbn; tauto. }
  destruct CF as (tail & -> & (C1 & _ & C3 & C4) & -> & EK0 & EK1). cbn [app].
  assert (KEYS : map fst tail = map fs_name fields) by (apply (forall2_keys col); [intros ? ? [H _]; exact H|exact C3]).
  destruct (0 + N.of_nat (length (filter fs_primary fields)) <=? 1) eqn:ELE.
  2:{ split; [cbn; tauto|]. intros lay (_ & _ & _ & _ & M4 & _). apply N.leb_gt in ELE.
      destruct M4 as [(y & E & _)|[E _]]; rewrite E in ELE; cbn in ELE; lia. }
  apply N.leb_le in ELE.
  set (kk := match pk with Some k => Some k | None => match tail with (k, _) :: _ => Some k | [] => None end end).
  assert (KC : forall k, key_column fields k <-> kk = Some k).
  { intros k. unfold key_column. destruct (filter fs_primary fields) as [|x [|y r]] eqn:EFI.
    - pose proof (EK0 eq_refl) as EPK. subst kk. rewrite EPK. replace (hd_error (map fs_name fields)) with (hd_error (map fst tail)) by (rewrite KEYS; reflexivity).
      destruct tail as [|[k0 v0] tl]; cbn [map hd_error fst].
      + split; [intros [(y & H & _)|[_ H]]; discriminate H|discriminate].
      + split; [intros [(y & H & _)|[_ H]]; [discriminate H|exact H]|]. intros H. right. split; [reflexivity|exact H].
    - pose proof (EK1 x eq_refl) as EPK. subst kk. rewrite EPK. split.
      + intros [(y & H & _ & ->)|[H _]]; [|discriminate H]. inversion H; subst. reflexivity.
      + intros H. inversion H; subst. left. exists x. split; [reflexivity|]. split; [|reflexivity].
        assert (IX : In x (filter fs_primary fields)) by (rewrite EFI; left; reflexivity).
        apply filter_In in IX as [IX PX]. exact (C4 x IX PX).
    - cbn [length] in ELE. lia. }
  (* a definition determines the fields *)
  assert (DET : forall lay, model_def uuid fields [] lay -> lo_fields lay = tail).
  { intros lay (_ & _ & M2 & _). clear -M2 C3. revert M2. generalize (lo_fields lay). 
    induction C3 as [|x [k v] l tl HC F IH]; intros fs M; inversion M as [|? [k' v'] ? tl' HM M']; subst; [reflexivity|].
    f_equal; [|apply IH; exact M'].
    destruct HC as (HC1 & HC2 & n & t & HT & HC3 & HC4), HM as (HM1 & HM2 & n' & t' & HT' & HM3 & HM4). cbn [fst snd] in *.
    subst k k'. f_equal. destruct v as [nv lv], v' as [nv' lv']. cbn [f_null f_layers] in *. subst nv nv' lv lv'. f_equal.
    rewrite HC4 in HM4. inversion HM4 as [[Q1 Q2]]. apply type_name_inj in Q1 as ->.
    assert (n = n') as ->; [|reflexivity]. apply (f_equal (@length layer_spec)) in Q2. rewrite !repeat_length in Q2. exact Q2. }
  fold kk. destruct kk as [k|] eqn:EKK.
  2:{ split; [cbn; tauto|]. intros lay (_ & _ & _ & _ & M4 & _). apply KC in M4. discriminate. }
  assert (NDT : NoDup (akeys tail)) by (unfold akeys; rewrite KEYS; exact C1).
  assert (LK : forall kf, In (k, kf) tail <-> f_get k tail = Some kf).
  { intros kf. split; [apply (in_aget bseq bseq_eq); exact NDT|apply (aget_in bseq bseq_eq)]. }
  destruct (f_get k tail) as [[fn [|t ts]]|] eqn:EG.
  - split; [cbn; tauto|]. intros lay M. pose proof (DET _ M) as D. destruct M as (_ & _ & _ & _ & M4 & _ & kf & HI & HL).
    apply KC in M4. inversion M4 as [Q]. rewrite <- Q, D in HI. apply LK in HI. inversion HI; subst. discriminate HL.
  - destruct (tuniq_is_unique (tsel_uniq t)) eqn:EU.
    + pose proof (proj2 (LK _) eq_refl) as EG'. split; [reflexivity|]. split; [exact C1|]. split; [exact C3|]. split; [reflexivity|].
      split; [apply KC; reflexivity|]. split; [apply key_type_spec; exact EU|]. exists (mk_field fn (t :: ts)). split; [exact EG'|].
      assert (LO : layers_ok (t :: ts)).
      { clear -C3 EG'. induction C3 as [|x kv l tl HC F IH]; [contradiction|].
        destruct EG' as [->|H]; [|auto]. destruct HC as (_ & _ & HC). apply written_layers_ok in HC. exact HC. }
      cbn [f_layers lo_ptag]. inversion LO; subst; [reflexivity|]. discriminate EU.
    + split; [cbn; tauto|]. intros lay M. pose proof (DET _ M) as D. destruct M as (_ & _ & _ & _ & M4 & M5 & kf & HI & HL).
      apply KC in M4. inversion M4 as [Q]. rewrite <- Q, D in HI. apply LK in HI. inversion HI; subst.
      cbn [f_layers] in HL. inversion HL; subst. apply key_type_spec in M5. congruence.
  - split; [cbn; tauto|]. intros lay M. pose proof (DET _ M) as D. destruct M as (_ & _ & _ & _ & M4 & _ & kf & HI & HL).
    apply KC in M4. inversion M4 as [Q]. rewrite <- Q, D in HI. apply LK in HI. discriminate HI.
Qed.

Definition field_eq_dec (a b : field) : {a = b} + {a <> b}.
Proof. decide equality; [apply list_eq_dec; intros x y; decide equality|decide equality]. Defined.

(** ** ALTER MODEL *)

Lemma check_nullable_spec d : dget K_nullable d <> Some (DData CNull) ->
  match check_nullable d with
  | None => False
  | Some (inl e) => e = ErrProps /\ forall b, ~ null_opt d b
  | Some (inr (b, rest)) => null_opt d b /\ (forall b', null_opt d b' -> b' = b) /\
      (rest = [] <-> forall k e, In (k, e) d -> k = K_nullable)
  end.
Proof.
  intros H. unfold check_nullable, null_opt. change (bstr "nullable"%string) with K_nullable.
  assert (R : adel bseq K_nullable d = [] <-> forall k e, In (k, e) d -> k = K_nullable).
  { unfold adel. clear H. induction d as [|[k0 e0] d IH]; cbn [filter fst].
    - split; [intros _ k e []|reflexivity].
    - destruct (bseq K_nullable k0) eqn:EB; cbn [negb].
      + apply bseq_eq in EB. subst k0. rewrite IH. split.
        * intros Q k e [X|X]; [inversion X; reflexivity|eauto].
        * intros Q k e X. apply (Q k e). right. exact X.
      + split; [discriminate|]. intros Q. apply bseq_neq in EB. elim EB. symmetry. apply (Q k0 e0). left. reflexivity. }
  destruct (dget K_nullable d) as [[c|m]|] eqn:E.
  - destruct c as [|b|q v|b|b|b]; try (split; [reflexivity|]; intros b' [X|[X _]]; discriminate X).
    + congruence.
    + split; [left; reflexivity|]. split; [|exact R]. intros b' [X|[X _]]; [inversion X; reflexivity|discriminate X].
  - split; [reflexivity|]. intros b' [X|[X _]]; discriminate X.
  - split; [right; auto|]. split; [|exact R]. intros b' [X|[_ X]]; [discriminate X|exact X].
Qed.

Definition not_null (l : list exp_field) : Prop :=
  forall x, In x l -> dget K_nullable (ef_props x) <> Some (DData CNull).
Definition acol (x : exp_field) (kv : bytes * field) : Prop :=
  fst kv = ef_name x /\ null_opt (ef_props x) (f_null (snd kv)) /\ written_type (ef_layers x) (f_layers (snd kv)).
Definition adds (pk : bytes) (fs : fieldmap) (l : list exp_field) (acc tail : fieldmap) : Prop :=
  NoDup (map ef_name l) /\
  (forall x, In x l -> ~ In (ef_name x) (map fst acc) /\ ~ In (ef_name x) (map fst fs) /\ ef_name x <> pk) /\
  Forall2 acol l tail.
Definition alter_errs : list qerr := [ErrAlter; ErrField; ErrType; ErrProps; ErrNeedLock].

Lemma add_plan_spec pk fs l : not_null l -> forall acc,
  match add_plan pk fs l acc with
  | None => False
  | Some (inl e) => In e alter_errs /\ forall tail, ~ adds pk fs l acc tail
  | Some (inr new) => exists tail, new = acc ++ tail /\ adds pk fs l acc tail
  end.
Proof.
  induction l as [|x l IH]; intros NN acc; cbn [add_plan].
  { exists []. rewrite app_nil_r. split; [reflexivity|]. repeat split; try constructor; contradiction. }
  pose proof (check_nullable_spec (ef_props x) (NN x (or_introl eq_refl))) as CN.
  destruct (check_nullable (ef_props x)) as [[e|[b rest]]|]; [| |contradiction].
  { destruct CN as [-> CN]. split; [cbn; tauto|]. intros tail (_ & _ & F). inversion F as [|? ? ? ? C]; subst.
    destruct C as (_ & C & _). exact (CN _ C). }
  destruct CN as (CN1 & CN2 & _).
  pose proof (parse_layers_spec (ef_layers x) b) as PL.
  destruct (parse_layers (ef_layers x) b) as [f|].
  2:{ split; [cbn; tauto|]. intros tail (_ & _ & F). inversion F as [|? ? ? ? C]; subst.
      destruct C as (_ & _ & C). exact (PL _ C). }
  destruct PL as [PN PL].
  destruct (f_insert (ef_name x) f acc) as [acc' fresh] eqn:EI.
  destruct (negb (f_has (ef_name x) fs) && negb (bseq (ef_name x) pk) && fresh) eqn:E.
  2:{ split; [cbn; tauto|]. intros tail (_ & A & _). destruct (A x (or_introl eq_refl)) as (A1 & A2 & A3).
      apply f_has_false in A2. apply bseq_neq in A3. rewrite A2, A3 in E. cbn [negb andb] in E. subst fresh.
      unfold f_insert in EI. rewrite (proj2 (f_has_false _ _) A1) in EI. discriminate EI. }
  apply andb_true_iff in E as [E ->]. apply andb_true_iff in E as [E1 E2].
  apply negb_true_iff, f_has_false in E1. apply negb_true_iff, bseq_neq in E2.
  apply f_insert_fresh in EI as [-> EF].
  specialize (IH (fun y Hy => NN y (or_intror Hy)) (acc ++ [(ef_name x, f)])).
  destruct (add_plan pk fs l (acc ++ [(ef_name x, f)])) as [[e|new]|]; [| |contradiction].
  - destruct IH as [IH1 IH]. split; [exact IH1|]. intros tail (C1 & C2 & C3).
    inversion C3 as [|? [k v] ? tl C C']; subst. inversion C1 as [|? ? C11 C12]; subst.
    apply (IH tl). split; [exact C12|]. split; [|exact C'].
    intros y Hy. destruct (C2 y (or_intror Hy)) as (D1 & D2 & D3). split; [|split; assumption].
    rewrite map_app, in_app_iff. cbn [map fst In]. intros [Q|[Q|[]]]; [exact (D1 Q)|].
    apply C11. rewrite Q. apply in_map. exact Hy.
  - destruct IH as (tail & -> & C1 & C2 & C3). exists ((ef_name x, f) :: tail). rewrite <- app_assoc.
    split; [reflexivity|]. split; [|split].
    + cbn [map]. constructor; [|exact C1]. intros Q. apply in_map_iff in Q as (y & Q & Hy).
      apply (proj1 (C2 y Hy)). rewrite map_app, in_app_iff. right. left. symmetry. exact Q.
    + intros y [<-|Hy]; [split; [exact EF|split; assumption]|]. destruct (C2 y Hy) as (D1 & D2 & D3).
      split; [|split; assumption]. intros Q. apply D1. rewrite map_app, in_app_iff. left. exact Q.
    + constructor; [|exact C3]. split; [reflexivity|]. cbn [snd]. rewrite PN. split; assumption.
Qed.

Lemma widened_len ls cs ts : widened ls cs ts -> (length ls <= length cs)%nat.
Proof. induction 1; cbn [length]; lia. Qed.
Lemma wider_compat c t : wider c t -> tsel_eqb c t || interop c t = true.
Proof. intros [->|H]; [rewrite (proj2 (tsel_eqb_eq t t) eq_refl); reflexivity|]. destruct c, t; try contradiction; reflexivity. Qed.
Lemma wider_code c t : tsel_eqb c t || interop c t = true ->
  (wider c t <-> tsel_eqb c t || (tsel_code c <=? tsel_code t) = true).
Proof.
  intros H. unfold wider. destruct (tsel_eqb c t) eqn:E.
  - apply tsel_eqb_eq in E. cbn [orb]. tauto.
  - cbn [orb] in *. split.
    + intros [->|Q]; [rewrite (proj2 (tsel_eqb_eq t t) eq_refl) in E; discriminate E|]. destruct c, t; try contradiction; reflexivity.
    + intros Q. right. destruct c, t; try discriminate H; try discriminate Q; try discriminate E; exact I.
Qed.

Lemma ldeltas_go_spec ls : forall cur nl d, (length ls <= length cur)%nat ->
  match ldeltas_go ls cur nl d with
  | inl e => e = ErrType /\ forall ts, ~ widened ls cur ts
  | inr (_, _, false, _) => forall ts, ~ widened ls cur ts
  | inr (nl', d', true, ts) =>
      (nl' = true -> nl = true /\ widened ls cur ts) /\ (nl' = false -> nl = false \/ forall ts', ~ widened ls cur ts') /\
      (d' = false <-> d = false /\ ts = cur)
  end.
Proof.
  induction ls as [|[ty props] ls IH]; intros cur nl d HL; cbn [ldeltas_go].
  { split; [intros ->; split; [reflexivity|constructor]|]. split; [auto|]. tauto. }
  destruct cur as [|c cur]; [cbn in HL; lia|]. cbn [length] in HL. cbn [ls_ty ls_props].
  destruct (get_layer ty) as [t|] eqn:EG.
  2:{ split; [reflexivity|]. intros ts H. inversion H; subst.
      rewrite (proj2 (C45_type_name_exact _ _) eq_refl) in EG. discriminate EG. }
  apply C45_type_name_exact in EG as ->.
  assert (INV : forall ts', widened (mk_ls (type_name t) props :: ls) (c :: cur) ts' ->
    props = [] /\ wider c t /\ exists ts, ts' = t :: ts /\ widened ls cur ts).
  { intros ts' H. inversion H as [|? t0 ? ? ts HW HR E1 E2 E3]; subst. 
    match goal with Q : type_name _ = type_name _ |- _ => apply type_name_inj in Q; subst end.
    split; [reflexivity|]. split; [assumption|]. eauto. }
  destruct (tsel_eqb c t || interop c t) eqn:EC.
  2:{ split; [reflexivity|]. intros ts H. apply INV in H as (_ & H & _). apply wider_compat in H. congruence. }
  destruct props as [|p props].
  2:{ intros ts H. apply INV in H as (H & _). discriminate H. }
  specialize (IH cur (nl && (tsel_eqb c t || (tsel_code c <=? tsel_code t))) (d || negb (tsel_eqb c t)) ltac:(lia)).
  destruct (ldeltas_go ls cur _ _) as [e|[[[nl' d'] [|]] ts]].
  - destruct IH as [-> IH]. split; [reflexivity|]. intros ts H. apply INV in H as (_ & _ & ts1 & _ & H). exact (IH _ H).
  - destruct IH as (I1 & I2 & I3). split; [|split].
    + intros H. destruct (I1 H) as [J1 J2]. apply andb_true_iff in J1 as [J0 J1]. split; [exact J0|].
      constructor; [apply wider_code; assumption|exact J2].
    + intros H. destruct (I2 H) as [J|J].
      * apply andb_false_iff in J as [J|J]; [left; exact J|]. right. intros ts' W. apply INV in W as (_ & W & _).
        apply (wider_code _ _ EC) in W. congruence.
      * right. intros ts' W. apply INV in W as (_ & _ & ts1 & _ & W). exact (J _ W).
    + rewrite I3, orb_false_iff, negb_false_iff, tsel_eqb_eq. split.
      * intros [[-> ->] ->]. auto.
      * intros [-> H]. inversion H; subst. auto.
  - intros ts' W. apply INV in W as (_ & _ & ts1 & _ & W). exact (IH _ W).
Qed.

Definition newcol (cur : field) (ls : list layer_spec) (b : bool) (f : field) : Prop :=
  f_null f = b /\ (f_null cur = true -> f_null f = true) /\ widened (rev ls) (f_layers cur) (f_layers f).
Lemma ldeltas_spec cur ls b : match ldeltas cur ls b with
  | inl e => In e alter_errs /\ forall f, ~ newcol cur ls b f
  | inr (nl, d, f) => (nl = true -> newcol cur ls b f) /\ (nl = false -> forall f', ~ newcol cur ls b f') /\
      (d = false <-> f = cur)
  end.
Proof.
  unfold ldeltas, newcol. destruct (Nat.ltb (length (f_layers cur)) (length ls)) eqn:EL.
  { apply Nat.ltb_lt in EL. split; [cbn; tauto|]. intros f (_ & _ & H). apply widened_len in H. rewrite rev_length in H. lia. }
  apply Nat.ltb_ge in EL.
  pose proof (ldeltas_go_spec (rev ls) (f_layers cur) (negb (f_null cur && negb b)) (xorb (f_null cur) b)
    ltac:(rewrite rev_length; exact EL)) as H.
  destruct (ldeltas_go (rev ls) (f_layers cur) (negb (f_null cur && negb b)) (xorb (f_null cur) b)) as [e|[[[nl d] [|]] ts]].
  - destruct H as [-> H]. split; [cbn; tauto|]. intros f (_ & _ & W). exact (H _ W).
  - destruct H as (H1 & H2 & H3). cbn [f_null f_layers]. split; [|split].
    + intros E. destruct (H1 E) as [J1 J2]. split; [reflexivity|]. split; [|exact J2].
      intros E'. rewrite E' in J1. destruct b; [reflexivity|discriminate J1].
    + intros E f' (Q1 & Q2 & Q3). destruct (H2 E) as [J|J]; [|exact (J _ Q3)].
      subst b. destruct (f_null cur); [|discriminate J]. rewrite (Q2 eq_refl) in J. discriminate J.
    + rewrite H3. destruct cur as [cn cl]. cbn [f_null f_layers]. split.
      * intros [E ->]. f_equal. destruct cn, b; try reflexivity; discriminate E.
      * intros E. inversion E; subst. split; [destruct cn; reflexivity|reflexivity].
  - split; [cbn; tauto|]. intros f (_ & _ & W). exact (H _ W).
Qed.

Definition upds (pk : bytes) (fs : fieldmap) (l : list exp_field) (acc tail : fieldmap) : Prop :=
  NoDup (map ef_name l) /\ (forall x, In x l -> ~ In (ef_name x) (map fst acc)) /\ Forall2 (upd_col pk fs) l tail.

Lemma upd_plan_spec pk fs l : not_null l -> forall nl d acc,
  match upd_plan pk fs l nl d acc with
  | None => False
  | Some (inl e) => In e alter_errs /\ forall tail, ~ upds pk fs l acc tail
  | Some (inr (nl', d', new)) => exists tail, new = acc ++ tail /\ map fst tail = map ef_name l /\
      (nl' = true -> nl = true /\ upds pk fs l acc tail) /\
      (nl' = false -> nl = false \/ forall tail', ~ upds pk fs l acc tail') /\
      (d' = false <-> d = false /\ Forall (fun kv => aget bseq (fst kv) fs = Some (snd kv)) tail)
  end.
Proof.
  induction l as [|x l IH]; intros NN nl d acc; cbn [upd_plan].
  { exists []. rewrite app_nil_r. split; [reflexivity|]. split; [reflexivity|]. split.
    { intros ->. split; [reflexivity|]. repeat split; try constructor; contradiction. }
    split; [auto|]. split; [intros ->; auto|tauto]. }
  destruct (bseq (ef_name x) pk) eqn:EPK.
  { apply bseq_eq in EPK. split; [cbn; tauto|]. intros tail (_ & _ & F). inversion F as [|? ? ? ? C]; subst.
    destruct C as (_ & C & _). contradiction. }
  apply bseq_neq in EPK. unfold f_get. destruct (aget bseq (ef_name x) fs) as [cur|] eqn:EC.
  2:{ split; [cbn; tauto|]. intros tail (_ & _ & F). inversion F as [|? ? ? ? C]; subst.
      destruct C as (_ & _ & _ & _ & cur & C & _). congruence. }
  pose proof (check_nullable_spec (ef_props x) (NN x (or_introl eq_refl))) as CN.
  destruct (check_nullable (ef_props x)) as [[e|[b rest]]|]; [| |contradiction].
  { destruct CN as [-> CN]. split; [cbn; tauto|]. intros tail (_ & _ & F). inversion F as [|? ? ? ? C]; subst.
    destruct C as (_ & _ & _ & C & _). exact (CN _ C). }
  destruct CN as (CN1 & CN2 & CN3).
  assert (INV : forall kv, upd_col pk fs x kv -> newcol cur (ef_layers x) b (snd kv) /\ rest = []).
  { intros kv (U1 & U2 & U3 & U4 & cur' & U5 & U6 & U7). rewrite EC in U5. inversion U5; subst cur'.
    split; [split; [apply CN2; exact U4|split; assumption]|]. apply CN3. exact U3. }
  pose proof (ldeltas_spec cur (ef_layers x) b) as LD.
  destruct (ldeltas cur (ef_layers x) b) as [e|[[nl2 d2] f]].
  { destruct LD as [LD1 LD]. split; [exact LD1|]. intros tail (_ & _ & F). inversion F as [|? ? ? ? C]; subst.
    apply INV in C as [C _]. exact (LD _ C). }
  destruct LD as (LD1 & LD2 & LD3).
  destruct (f_insert (ef_name x) f acc) as [acc' fresh] eqn:EI.
  destruct (match rest with [] => true | _ => false end && fresh) eqn:E.
  2:{ split; [cbn; tauto|]. intros tail (_ & A & F). inversion F as [|? ? ? ? C]; subst. apply INV in C as [_ ->].
      cbn [andb] in E. subst fresh. unfold f_insert in EI.
      rewrite (proj2 (f_has_false _ _) (A x (or_introl eq_refl))) in EI. discriminate EI. }
  apply andb_true_iff in E as [E ->]. assert (rest = []) as -> by (destruct rest; [reflexivity|discriminate E]). clear E.
  apply f_insert_fresh in EI as [-> EF].
  specialize (IH (fun y Hy => NN y (or_intror Hy)) (nl && nl2) (d || d2) (acc ++ [(ef_name x, f)])).
  assert (TL : forall tail, upds pk fs (x :: l) acc tail -> exists kv tl, tail = kv :: tl /\ upd_col pk fs x kv /\
    upds pk fs l (acc ++ [(ef_name x, f)]) tl).
  { intros tail (C1 & C2 & C3). inversion C3 as [|? kv ? tl C C']; subst. inversion C1 as [|? ? C11 C12]; subst.
    exists kv, tl. split; [reflexivity|]. split; [exact C|]. split; [exact C12|]. split; [|exact C'].
    intros y Hy. rewrite map_app, in_app_iff. cbn [map fst In]. intros [Q|[Q|[]]]; [exact (C2 y (or_intror Hy) Q)|].
    apply C11. rewrite Q. apply in_map. exact Hy. }
  destruct (upd_plan pk fs l (nl && nl2) (d || d2) (acc ++ [(ef_name x, f)])) as [[e|[[nl' d'] new]]|]; [| |contradiction].
  - destruct IH as [IH1 IH]. split; [exact IH1|]. intros tail T. apply TL in T as (kv & tl & _ & _ & T). exact (IH _ T).
  - destruct IH as (tail & -> & KT & I1 & I2 & I3). exists ((ef_name x, f) :: tail). rewrite <- app_assoc.
    split; [reflexivity|]. split; [cbn [map fst]; rewrite KT; reflexivity|]. split; [|split].
    + intros E. destruct (I1 E) as [J (C1 & C2 & C3)]. apply andb_true_iff in J as [-> J]. split; [reflexivity|].
      destruct (LD1 J) as (N1 & N2 & N3). split; [|split].
      * cbn [map]. constructor; [|exact C1]. intros Q. apply in_map_iff in Q as (y & Q & Hy).
        apply (C2 y Hy). rewrite map_app, in_app_iff. right. left. symmetry. exact Q.
      * intros y [<-|Hy]; [exact EF|]. intros Q. apply (C2 y Hy). rewrite map_app, in_app_iff. left. exact Q.
      * constructor; [|exact C3]. split; [reflexivity|]. split; [exact EPK|]. split; [apply CN3; reflexivity|].
        cbn [snd]. split; [rewrite N1; exact CN1|]. exists cur. auto.
    + intros E. destruct (I2 E) as [J|J].
      * apply andb_false_iff in J as [J|J]; [left; exact J|]. right. intros tail' T. apply TL in T as (kv & tl & _ & T & _).
        apply INV in T as [T _]. exact (LD2 J _ T).
      * right. intros tail' T. apply TL in T as (kv & tl & _ & _ & T). exact (J _ T).
    + rewrite I3, orb_false_iff, LD3. split.
      * intros [[-> ->] F]. split; [reflexivity|]. constructor; [exact EC|exact F].
      * intros [-> F]. inversion F as [|? ? F1 F2]; subst. cbn [fst snd] in F1. rewrite EC in F1. inversion F1; subst. auto.
Qed.

(** the mutator *)
Lemma live_add_spec fs : forall m, NoDup (map fst fs) ->
  (forall k, In k (map fst fs) -> ~ In k (map fst (lo_fields (md_lay m)))) ->
  live_add fs m = with_fields m (lo_fields (md_lay m) ++ fs) (md_ver m + N.of_nat (length fs)).
Proof.
  induction fs as [|[k v] fs IH]; intros m ND HK.
  - cbn. rewrite app_nil_r, N.add_0_r. destruct m as [[? ? ? ?] ?]. reflexivity.
  - unfold live_add. cbn [fold_left fst snd]. unfold mut_add, f_insert.
    rewrite (proj2 (f_has_false k _)) by (apply HK; left; reflexivity). cbn [fst].
    inversion ND; subst. change (fold_left _ fs ?x) with (live_add fs x). rewrite IH; auto.
    + unfold with_fields. cbn [bump set_fields md_lay md_ver lo_fields lo_uuid lo_pk lo_ptag]. rewrite <- app_assoc.
      f_equal. cbn [length]. lia.
    + cbn [bump set_fields md_lay lo_fields]. intros k' H'. rewrite map_app, in_app_iff. cbn [map fst In].
      intros [X|[X|[]]]; [|congruence]. eapply HK; [right; exact H'|exact X].
Qed.

Lemma keep_cons k ks fs : keep (k :: ks) fs = keep ks (adel bseq k fs).
Proof.
  unfold keep, adel. cbn [existsb]. induction fs as [|[a v] fs IH]; [reflexivity|]. cbn [filter fst].
  rewrite beq_bseq. destruct (bseq k a) eqn:E.
  - apply bseq_eq in E as ->. rewrite bseq_refl. cbn [orb negb]. exact IH.
  - assert (E' : bseq a k = false) by (apply bseq_neq; apply bseq_neq in E; congruence).
    rewrite E'. cbn [orb negb filter fst]. rewrite IH. reflexivity.
Qed.
Lemma keep_nil fs : keep [] fs = fs.
Proof. unfold keep. induction fs as [|a fs IH]; [reflexivity|]. cbn [filter existsb negb]. f_equal. exact IH. Qed.
Lemma adel_absent k (fs : fieldmap) : ~ In k (map fst fs) -> adel bseq k fs = fs.
Proof.
  unfold adel. induction fs as [|[a b] l IHl]; [reflexivity|]. cbn [filter fst map In]. intros H.
  destruct (bseq k a) eqn:EB; [apply bseq_eq in EB; subst; tauto|]. cbn [negb]. rewrite IHl; tauto.
Qed.

Lemma live_rem_spec ks : forall m,
  live_rem ks m = with_fields m (keep ks (lo_fields (md_lay m))) (md_ver m + N.of_nat (length ks)).
Proof.
  induction ks as [|k ks IH]; intros m.
  - rewrite keep_nil. cbn. rewrite N.add_0_r. destruct m as [[? ? ? ?] ?]. reflexivity.
  - unfold live_rem. cbn [fold_left]. change (fold_left _ ks ?x) with (live_rem ks x) at 1. rewrite IH, keep_cons.
    unfold mut_rem, f_delete. destruct (f_has k (lo_fields (md_lay m))) eqn:E; cbn [fst];
      unfold with_fields; cbn [bump set_fields md_lay md_ver lo_fields lo_uuid lo_pk lo_ptag length].
    + f_equal. lia.
    + apply f_has_false in E. rewrite (adel_absent k) by exact E. f_equal. lia.
Qed.

Lemma keep_app ks a b : keep ks (a ++ b) = keep ks a ++ keep ks b.
Proof. apply filter_app. Qed.
Lemma keep_fresh ks fs : (forall k, In k (map fst fs) -> ~ In k ks) -> keep ks fs = fs.
Proof.
  unfold keep. induction fs as [|[a v] fs IH]; intros H; [reflexivity|]. cbn [filter fst map] in *.
  destruct (existsb (beq a) ks) eqn:E.
  - apply existsb_exists in E as (y & Hy & E). rewrite beq_bseq in E. apply bseq_eq in E. subst y.
    elim (H a (or_introl eq_refl) Hy).
  - cbn [negb]. rewrite IH; [reflexivity|]. intros k Hk. apply H. right. exact Hk.
Qed.

Lemma live_upd_spec fs : forall m, NoDup (map fst fs) ->
  (forall k, In k (map fst fs) -> In k (map fst (lo_fields (md_lay m)))) ->
  live_upd fs m = with_fields m (keep (map fst fs) (lo_fields (md_lay m)) ++ fs) (md_ver m).
Proof.
  induction fs as [|[k v] fs IH]; intros m ND HK.
  - cbn [map]. rewrite keep_nil, app_nil_r. destruct m as [[? ? ? ?] ?]. reflexivity.
  - unfold live_upd. cbn [fold_left fst snd]. change (fold_left _ fs ?x) with (live_upd fs x).
    unfold mut_upd, f_update. rewrite (proj2 (f_has_in k _)) by (apply HK; left; reflexivity). cbn [fst].
    inversion ND as [|? ? NI ND']; subst. rewrite IH; [|exact ND'|].
    + unfold with_fields. cbn [set_fields md_lay md_ver lo_fields lo_uuid lo_pk lo_ptag map fst].
      rewrite keep_cons, keep_app, <- app_assoc. cbn [app].
      rewrite (keep_fresh (map fst fs) [(k, v)]); [reflexivity|]. cbn [map fst In]. intros k' [<-|[]]. exact NI.
    + intros k' Hk'. cbn [set_fields md_lay lo_fields]. rewrite map_app, in_app_iff.
      left. apply (akeys_del_in bseq bseq_eq). split; [intros ->; contradiction|]. apply HK. right. exact Hk'.
Qed.

Lemma keep_perm ks ks' fs : (forall k, In k ks <-> In k ks') -> keep ks fs = keep ks' fs.
Proof.
  intros H. unfold keep. apply filter_ext. intros [a v]. cbn [fst]. f_equal.
  apply eq_true_iff_eq. rewrite !existsb_exists. split; intros (y & Hy & E); exists y; split; auto; apply H; exact Hy.
Qed.

Section Alter.
Variable order : fieldmap -> fieldmap.
Hypothesis order_perm : forall l, Permutation (order l) l.

Definition kind_not_null (k : alter_kind) : Prop :=
  match k with AkAdd l | AkUpdate l => not_null l | AkRemove _ => True end.

Lemma fdeltas_spec m k : lay_ok (md_lay m) -> kind_not_null k ->
  match fdeltas order m k with
  | None => False
  | Some (inl e) => In e alter_errs /\ forall m', ~ model_altered m k m'
  | Some (inr (false, _)) => forall m', ~ model_altered m k m'
  | Some (inr (true, a)) => model_altered m k
      match a with AaIgnore => m | AaAdd fs => live_add fs m | AaRemove ks => live_rem ks m | AaUpdate fs => live_upd fs m end
  end.
Proof.
  intros (L1 & _ & fk & LK & _) NN. unfold fdeltas. 
  assert (PKIN : In (lo_pk (md_lay m)) (map fst (lo_fields (md_lay m)))).
  { unfold f_get in LK. apply (aget_some_key bseq bseq_eq) in LK. exact LK. }
  assert (ETA : forall v, v = md_ver m -> with_fields m (lo_fields (md_lay m)) v = m).
  { intros v ->. destruct m as [[? ? ? ?] ?]. reflexivity. }
  destruct k as [l|ks|l].
  - pose proof (add_plan_spec (lo_pk (md_lay m)) (lo_fields (md_lay m)) l NN []) as AP.
    destruct (add_plan _ _ l []) as [[e|new]|]; [| |contradiction].
    + destruct AP as [AP1 AP]. split; [exact AP1|]. intros m' H. inversion H as [? new (A1 & A2 & A3)| | |]; subst.
      apply (AP new). split; [exact A1|]. split; [|exact A3]. intros x Hx. split; [intros []|].
      assert (NI : ~ In (ef_name x) (map fst (lo_fields (md_lay m)))) by (intros Q; apply in_keys in Q; exact (Q (A2 x Hx))).
      split; [exact NI|]. intros Q. apply NI. rewrite Q. exact PKIN.
    + destruct AP as (tail & -> & A1 & A2 & A3). cbn [app].
      assert (KEYS : map fst tail = map ef_name l) by (apply (forall2_keys acol); [intros ? ? [H _]; exact H|exact A3]).
      assert (LEN : length tail = length l) by (apply (f_equal (@length bytes)) in KEYS; rewrite !map_length in KEYS; exact KEYS).
      assert (AD : add_def (lo_fields (md_lay m)) l tail).
      { split; [exact A1|]. split; [|exact A3]. intros x Hx. apply (aget_none bseq bseq_eq). apply A2. exact Hx. }
      destruct tail as [|x0 tl0] eqn:ET.
      * pose proof (ma_add m l [] AD) as Q. rewrite app_nil_r, ETA in Q; [exact Q|]. rewrite <- LEN. cbn. lia.
      * cbv beta iota. rewrite <- ET in *. rewrite live_add_spec.
        -- rewrite LEN. apply ma_add. exact AD.
        -- rewrite KEYS. exact A1.
        -- rewrite KEYS. intros k Hk. apply in_map_iff in Hk as (y & <- & Hy). apply A2. exact Hy.
  - destruct (no_dups ks) eqn:ED; cbn [negb].
    2:{ split; [cbn; tauto|]. intros m' H. inversion H as [|? (R1 & _)| |]; subst. apply no_dups_ok in R1. congruence. }
    apply no_dups_ok in ED.
    assert (RC : match rem_check (lo_pk (md_lay m)) (lo_fields (md_lay m)) ks with
      | None => forall k, In k ks -> k <> lo_pk (md_lay m) /\ aget bseq k (lo_fields (md_lay m)) <> None
      | Some e => In e alter_errs /\ ~ forall k, In k ks -> k <> lo_pk (md_lay m) /\ aget bseq k (lo_fields (md_lay m)) <> None
      end).
    { clear ED NN. induction ks as [|k ks IH]; cbn [rem_check].
      { intros k' Hk'. destruct Hk'. }
      destruct (negb (bseq k (lo_pk (md_lay m))) && f_has k (lo_fields (md_lay m))) eqn:E.
      - apply andb_true_iff in E as [E1 E2]. apply negb_true_iff, bseq_neq in E1. apply f_has_in in E2.
        destruct (rem_check _ _ ks) as [e|].
        + destruct IH as [IH1 IH]. split; [exact IH1|]. intros Q. apply IH. intros k' Hk'. apply Q. right. exact Hk'.
        + intros k' [<-|Hk']; [split; [exact E1|apply in_keys; exact E2]|auto].
      - assert (NQ : ~ forall k', In k' (k :: ks) -> k' <> lo_pk (md_lay m) /\ aget bseq k' (lo_fields (md_lay m)) <> None).
        { intros Q. destruct (Q k (or_introl eq_refl)) as [Q1 Q2]. apply bseq_neq in Q1. apply in_keys in Q2.
          apply f_has_in in Q2. rewrite Q1, Q2 in E. discriminate E. }
        destruct (f_has k _); split; auto; cbn; tauto. }
    destruct (rem_check _ _ ks) as [e|].
    + destruct RC as [RC1 RC]. split; [exact RC1|]. intros m' H. inversion H as [|? (_ & R2)| |]; subst. exact (RC R2).
    + assert (RD : rem_def (lo_pk (md_lay m)) (lo_fields (md_lay m)) ks) by (split; assumption).
      pose proof (ma_rem m ks RD) as Q. destruct ks as [|k ks].
      * rewrite keep_nil, ETA in Q; [exact Q|]. cbn. lia.
      * rewrite live_rem_spec. exact Q.
  - pose proof (upd_plan_spec (lo_pk (md_lay m)) (lo_fields (md_lay m)) l NN true false []) as UP.
    destruct (upd_plan _ _ l true false []) as [[e|[[nl d] new]]|]; [| |contradiction].
    + destruct UP as [UP1 UP]. split; [exact UP1|].
      intros m' H. inversion H as [| |? new ? (U1 & U2)|? new (U1 & U2)]; subst; apply (UP new);
        (split; [exact U1|split; [intros ? ? []|exact U2]]).
    + destruct UP as (tail & -> & KT & I1 & I2 & I3). cbn [app]. destruct nl.
      * destruct (I1 eq_refl) as [_ (U1 & _ & U3)].
        assert (UD : upd_def (lo_pk (md_lay m)) (lo_fields (md_lay m)) l tail) by (split; assumption).
        destruct d.
        -- assert (EX : Exists (fun kv => aget bseq (fst kv) (lo_fields (md_lay m)) <> Some (snd kv)) tail).
           { apply neg_Forall_Exists_neg.
             - intros [k v]. cbn [fst snd]. destruct (aget bseq k (lo_fields (md_lay m))) as [w|]; [|right; discriminate].
               destruct (field_eq_dec w v) as [->|N]; [left; reflexivity|right; congruence].
             - intros F. assert (X : true = false) by (apply I3; auto). discriminate X. }
           assert (KEYS : forall k, In k (map fst (order tail)) <-> In k (map ef_name l)).
           { intros k. rewrite <- KT. split; apply Permutation_in; [|apply Permutation_sym]; apply Permutation_map, order_perm. }
           rewrite live_upd_spec.
           ++ rewrite (keep_perm _ _ _ KEYS). eapply ma_upd; eauto.
           ++ eapply Permutation_NoDup; [apply Permutation_map, Permutation_sym, order_perm|]. rewrite KT. exact U1.
           ++ intros k Hk. apply KEYS in Hk. apply in_map_iff in Hk as (x & <- & Hx).
              clear -U3 Hx. induction U3 as [|y kv l tl HC F IH]; [contradiction|]. destruct Hx as [->|Hx]; [|auto].
              destruct HC as (_ & _ & _ & _ & cur & HC & _). apply in_keys. congruence.
        -- apply (ma_upd_same m l tail); [exact UD|]. apply I3. reflexivity.
      * intros m' H. destruct (I2 eq_refl) as [X|UP]; [discriminate X|].
        inversion H as [| |? new ? (U1 & U2)|? new (U1 & U2)]; subst; apply (UP new);
        (split; [exact U1|split; [intros ? ? []|exact U2]]).
Qed.
End Alter.

(** ** All statements *)
Section Main.
Variable order : fieldmap -> fieldmap.
Variable hash : bytes -> N -> bytes.
Hypothesis order_perm : forall l, Permutation (order l) l.

Lemma cat_eq_refl a : cat_eq a a.
Proof. repeat split. Qed.

Lemma space_put n k s x : aget bseq x (aput bseq k s (n_spaces n)) =
  if beq x k then Some s else aget bseq x (n_spaces n).
Proof.
  rewrite beq_bseq. destruct (bseq x k) eqn:E.
  - apply bseq_eq in E as ->. apply (aget_put_same bseq bseq_eq).
  - apply bseq_neq in E. apply (aget_put_other bseq bseq_eq). exact E.
Qed.
Lemma bput {V} k (v : V) m x : aget bseq x (aput bseq k v m) = if beq x k then Some v else aget bseq x m.
Proof.
  rewrite beq_bseq. destruct (bseq x k) eqn:E.
  - apply bseq_eq in E as ->. apply (aget_put_same bseq bseq_eq).
  - apply bseq_neq in E. apply (aget_put_other bseq bseq_eq). exact E.
Qed.
Lemma bdel {V} k (m : list (bytes * V)) x : aget bseq x (adel bseq k m) = if beq x k then None else aget bseq x m.
Proof.
  rewrite beq_bseq. destruct (bseq x k) eqn:E.
  - apply bseq_eq in E as ->. apply (aget_del_same bseq).
  - apply bseq_neq in E. apply (aget_del_other bseq bseq_eq). exact E.
Qed.
Lemma eput {V} k (v : V) m x : aget ent_eqb x (aput ent_eqb k v m) = if ideq x k then Some v else aget ent_eqb x m.
Proof.
  rewrite ideq_ent. destruct (ent_eqb x k) eqn:E.
  - apply ent_eqb_eq in E as ->. apply (aget_put_same ent_eqb ent_eqb_eq).
  - apply (aget_put_other ent_eqb ent_eqb_eq). intros ->. rewrite (proj2 (ent_eqb_eq k k) eq_refl) in E. discriminate E.
Qed.
Lemma edel {V} k (m : list (ent * V)) x : aget ent_eqb x (adel ent_eqb k m) = if ideq x k then None else aget ent_eqb x m.
Proof.
  rewrite ideq_ent. destruct (ent_eqb x k) eqn:E.
  - apply ent_eqb_eq in E as ->. apply (aget_del_same ent_eqb).
  - apply (aget_del_other ent_eqb ent_eqb_eq). intros ->. rewrite (proj2 (ent_eqb_eq k k) eq_refl) in E. discriminate E.
Qed.

Lemma c_space_some n k s : aget bseq k (n_spaces n) = Some s -> c_space (cat_of n) k = Some (sp_uuid s, sp_props s).
Proof. intros H. cbn. rewrite H. reflexivity. Qed.
Lemma c_space_none n k : aget bseq k (n_spaces n) = None -> c_space (cat_of n) k = None.
Proof. intros H. cbn. rewrite H. reflexivity. Qed.

(** same uuid and properties: the catalogue does not notice *)
Lemma same_space n k s s' : aget bseq k (n_spaces n) = Some s -> sp_uuid s' = sp_uuid s -> sp_props s' = sp_props s ->
  forall x, match aget bseq x (aput bseq k s' (n_spaces n)) with Some s => Some (sp_uuid s, sp_props s) | None => None end =
            c_space (cat_of n) x.
Proof.
  intros H U P x. cbn. rewrite bput, beq_bseq. destruct (bseq x k) eqn:E; [|reflexivity].
  apply bseq_eq in E as ->. rewrite H, U, P. reflexivity.
Qed.

Ltac nochange := exists Nothing; split; [|apply cat_eq_refl].

Lemma exec_does se en w s w' o : ns_wf (w_ns w) -> ns_link (w_ns w) -> w_iffy w = false ->
  e_init en = true -> e_commit en = true -> stmt_nd s -> ~ null_nullable s ->
  exec_stmt order hash se en w s = (w', o) ->
  exists ch, does hash (cat_of (w_ns w)) se en s o ch /\ cat_eq (cat_of (w_ns w')) (changed ch (cat_of (w_ns w))).
Proof.
  intros W L IF EI EC ND NN H. unfold exec_stmt in H.
  assert (DC : forall e, driver_commit true e w = (mk_world (w_ns w) (w_log w ++ [e]) false, true)).
  { intros e. unfold driver_commit. rewrite IF. reflexivity. }
  destruct s as [name props nx|name props|name force ex|id fields props nx|id k|id force ex|name opts|name opts|name|];
    [..|rewrite IF in H; inversion H; subst; nochange; constructor];
    (destruct (se_root se) eqn:ER; cbn [negb] in H; [|inversion H; subst; nochange; apply d_permission; [discriminate|exact ER]]).
  - (* create space *)
    unfold exec_create_space in H. cbn [stmt_nd] in ND. pose proof (create_space_props_spec props ND) as SP.
    destruct (create_space_props props) as [p|]; [|inversion H; subst; nochange; apply d_cs_options; assumption].
    destruct (aget bseq name (n_spaces (w_ns w))) as [s|] eqn:ES.
    { inversion H; subst. nochange. eapply d_cs_exists; eauto. apply c_space_some. exact ES. }
    rewrite EI, EC, DC in H. cbn [negb] in H. cbn [w_ns with_ns] in H. inversion H; subst.
    exists (SetSpace name (e_uuid en) p). split; [apply d_cs; auto; apply c_space_none; exact ES|].
    split; [|split; reflexivity]. intros k. cbn. rewrite bput. destruct (beq k name); reflexivity.
  - (* alter space *)
    unfold exec_alter_space in H. destruct (aget bseq name (n_spaces (w_ns w))) as [s|] eqn:ES.
    2:{ inversion H; subst. nochange. apply d_as_missing; [exact ER|apply c_space_none; exact ES]. }
    pose proof (c_space_some _ _ _ ES) as CS.
    rewrite EC in H. cbn [stmt_nd] in ND.
    assert (GO : forall e, (e = DData CNull \/ exists m, e = DMap m) -> props = [(KEY_ENV, e)] ->
      match prepare_patch (sp_props s) props with
      | Some patch => let '(w1, ok) := driver_commit true (EvAlterSpace (mk_sid (sp_uuid s) name) patch) w in
          if ok then match merge (sp_props s) patch with
            | Some d => (with_ns w1 (set_spaces (aput bseq name (mk_mspace (sp_uuid s) (sp_models s)
                match dget KEY_ENV d with Some _ => d | None => aput bseq KEY_ENV (DMap []) d end) (n_spaces (w_ns w1))) (w_ns w1)), OEmpty)
            | None => (w1, OPanic) end else (w1, OErr ErrServer)
      | None => (w, OErr ErrProps) end = (w', o) ->
      exists ch, does hash (cat_of (w_ns w)) se en (SAlterSpace name props) o ch /\ cat_eq (cat_of (w_ns w')) (changed ch (cat_of (w_ns w)))).
    { intros e HE -> G. destruct (prepare_patch (sp_props s) [(KEY_ENV, e)]) as [patch|] eqn:EP.
      - destruct (prepare_merge _ _ _ ND EP) as (d & M & _). rewrite DC, M in G. cbn [w_ns with_ns] in G. inversion G; subst.
        pose proof (alter_props_spec _ _ _ _ ND HE EP M) as SA.
        eexists. split; [eapply d_as; [exact ER|exact CS|exact SA]|].
        split; [|split; reflexivity]. intros k. cbn. rewrite bput. destruct (beq k name); reflexivity.
      - inversion G; subst. nochange. eapply d_as_options; [exact ER|exact CS|discriminate|].
        intros p' SA. inversion SA as [e' d' HE' AC]; subst. apply prepare_accepts in AC as [q Q]; [|exact ND]. 
        change K_env with KEY_ENV in Q. congruence. }
    assert (BAD : props <> [] -> (forall e, (e = DData CNull \/ exists m, e = DMap m) -> props <> [(KEY_ENV, e)]) ->
      (w, OErr ErrProps) = (w', o) ->
      exists ch, does hash (cat_of (w_ns w)) se en (SAlterSpace name props) o ch /\ cat_eq (cat_of (w_ns w')) (changed ch (cat_of (w_ns w)))).
    { intros NE B G. inversion G; subst. nochange. eapply d_as_options; [exact ER|exact CS|exact NE|].
      intros p' SA. inversion SA as [e' d' HE' AC]; subst. exact (B _ HE' eq_refl). }
    destruct (dget KEY_ENV props) as [[c|m]|] eqn:ED.
    + destruct (Nat.eqb (length props) 1 && negb (cell_init c)) eqn:EB.
      * apply andb_true_iff in EB as [EB1 EB2]. apply Nat.eqb_eq in EB1. apply negb_true_iff, cell_null in EB2. subst c.
        apply (one_env _ _ ED) in EB1. exact (GO _ (or_introl eq_refl) EB1 H).
      * apply BAD; [intros ->; discriminate ED| |exact H]. intros e HE ->. rewrite dget_env_1 in ED. inversion ED; subst e.
        destruct HE as [X|[m X]]; [|discriminate X]. inversion X; subst c. discriminate EB.
    + destruct (Nat.eqb (length props) 1) eqn:EB.
      * apply Nat.eqb_eq in EB. apply (one_env _ _ ED) in EB. exact (GO _ (or_intror (ex_intro _ m eq_refl)) EB H).
      * apply BAD; [intros ->; discriminate ED| |exact H]. intros e HE ->. discriminate EB.
    + destruct props as [|p props].
      * inversion H; subst. nochange. eapply d_as_nothing; eauto.
      * apply BAD; [discriminate| |exact H]. intros e HE Q. rewrite Q, dget_env_1 in ED. discriminate ED.
  - (* drop space *)
    unfold exec_drop_space in H. destruct (aget bseq name (n_spaces (w_ns w))) as [s|] eqn:ES.
    2:{ inversion H; subst. nochange. apply d_ds_missing; [exact ER|apply c_space_none; exact ES]. }
    destruct (wf_space _ W _ _ ES) as [SM _]. pose proof (c_space_some _ _ _ ES) as CS.
    assert (LK : forall m, In m (sp_models s) <-> exists x, aget ent_eqb (name, m) (n_models (w_ns w)) = Some x).
    { intros m. rewrite (L name m). split; [eauto|]. intros (s' & E & I). rewrite ES in E. inversion E; subst. exact I. }
    rewrite EC in H. destruct force.
    + unfold driver_commit in H. cbn [w_iffy with_ns] in H. rewrite IF in H. cbn [w_ns with_ns set_spaces n_models] in H.
      rewrite drop_models_ok in H; [|exact SM|intros m Hm; apply LK; exact Hm]. inversion H; subst.
      exists (DelSpace name). split; [eapply d_ds; eauto|]. cbn [with_ns w_ns].
      split; [|split; [|reflexivity]].
      * intros k. cbn. rewrite bdel. destruct (beq k name); reflexivity.
      * intros [a b]. cbn. rewrite del_models_get. cbn [fst snd]. rewrite beq_bseq. destruct (bseq a name) eqn:EB; [|reflexivity].
        cbn [andb]. destruct (set_has b (sp_models s)) eqn:EH; [reflexivity|]. apply bseq_eq in EB as ->.
        apply set_has_false in EH. destruct (aget ent_eqb (name, b) (n_models (w_ns w))) eqn:EG; [|reflexivity].
        elim EH. apply LK. eauto.
    + destruct (sp_models s) as [|m0 ms] eqn:EM.
      * rewrite DC in H. cbn [w_ns with_ns] in H. inversion H; subst.
        assert (NM : forall m, aget ent_eqb (name, m) (n_models (w_ns w)) = None).
        { intros m. destruct (aget ent_eqb (name, m) (n_models (w_ns w))) eqn:EG; [|reflexivity].
          elim (proj2 (LK m)). eauto. }
        exists (DelSpace name). split; [eapply d_ds; eauto|].
        split; [|split; [|reflexivity]].
        -- intros k. cbn. rewrite bdel. destruct (beq k name); reflexivity.
        -- intros [a b]. cbn. rewrite beq_bseq. destruct (bseq a name) eqn:EB; [|reflexivity].
           apply bseq_eq in EB as ->. apply NM.
      * inversion H; subst. destruct (proj1 (LK m0) (or_introl eq_refl)) as [x X].
        nochange. eapply d_ds_full; [exact ER|exact CS|exact X].
  - (* create model *)
    unfold exec_create_model in H. pose proof (process_create_spec (e_uuid en) fields props) as PC.
    destruct (process_create_model (e_uuid en) fields props) as [e|lay].
    { destruct PC as [PC1 PC]. inversion H; subst. nochange. apply d_cm_def; assumption. }
    destruct (aget bseq (fst id) (n_spaces (w_ns w))) as [s|] eqn:ES.
    2:{ inversion H; subst. nochange. eapply d_cm_space; eauto. apply c_space_none. exact ES. }
    pose proof (c_space_some _ _ _ ES) as CS. destruct id as [sp mn]. cbn [fst snd] in *.
    assert (LK : In mn (sp_models s) <-> exists x, aget ent_eqb (sp, mn) (n_models (w_ns w)) = Some x).
    { rewrite (L sp mn). split; [eauto|]. intros (s' & E & I). rewrite ES in E. inversion E; subst. exact I. }
    destruct (set_has mn (sp_models s)) eqn:EH.
    { inversion H; subst. apply set_has_in, LK in EH as [x X]. nochange. eapply d_cm_exists; eauto. }
    apply set_has_false in EH. rewrite EI, EC, DC in H. cbn [negb] in H. cbn [w_ns with_ns] in H. inversion H; subst.
    exists (SetModel (sp, mn) (mk_mmodel lay 0)). split.
    { eapply d_cm; eauto. cbn. destruct (aget ent_eqb (sp, mn) (n_models (w_ns w))) eqn:EG; [|reflexivity].
      elim EH. apply LK. eauto. }
    split; [|split; [|reflexivity]].
    + intros k. apply (same_space _ _ s _ ES); reflexivity.
    + intros x. cbn. apply eput.
  - (* alter model *)
    unfold exec_alter_model in H. destruct (aget ent_eqb id (n_models (w_ns w))) as [m|] eqn:EM.
    2:{ inversion H; subst. nochange. apply d_am_missing; [exact ER|exact EM]. }
    destruct (aget bseq (fst id) (n_spaces (w_ns w))) as [s|] eqn:ES.
    2:{ destruct id as [sp mn]. destruct (proj1 (L sp mn) (ex_intro _ m EM)) as (s & E & _). cbn in ES. congruence. }
    assert (KN : kind_not_null k).
    { destruct k as [l| |l]; cbn [kind_not_null]; [|exact I|]; intros x Hx Q; apply NN; exists x; split; auto. }
    pose proof (fdeltas_spec order order_perm m k (wf_model _ W _ _ EM) KN) as FD.
    destruct (fdeltas order m k) as [[e|[[|] a]]|]; [| | |contradiction].
    + destruct FD as [FD1 FD]. inversion H; subst. nochange. eapply d_am_refused; eauto.
    + cbn [negb] in H. rewrite EC in H. 
      assert (DONE : w_ns w' = set_models (aput ent_eqb id match a with AaIgnore => m | AaAdd fs => live_add fs m
         | AaRemove ks => live_rem ks m | AaUpdate fs => live_upd fs m end (n_models (w_ns w))) (w_ns w) /\ o = OEmpty \/
         a = AaIgnore /\ w' = w /\ o = OEmpty).
      { destruct a; [right; inversion H; auto|left..]; rewrite DC in H; inversion H; subst; auto. }
      assert (OE : o = OEmpty) by tauto. subst o.
      exists (SetModel id match a with AaIgnore => m | AaAdd fs => live_add fs m
         | AaRemove ks => live_rem ks m | AaUpdate fs => live_upd fs m end). split; [eapply d_am; eauto|].
      destruct DONE as [[DW _]|(-> & -> & _)].
      * split; [|split]; intros x; cbn; rewrite DW; [reflexivity|apply eput|reflexivity].
      * split; [|split]; intros x; cbn; [reflexivity| |reflexivity]. rewrite ideq_ent. destruct (ent_eqb x id) eqn:E; [|reflexivity].
        apply ent_eqb_eq in E as ->. exact EM.
    + cbn [negb] in H. inversion H; subst. nochange. eapply d_am_refused; eauto. cbn; tauto.
  - (* drop model *)
    unfold exec_drop_model in H. destruct (aget bseq (fst id) (n_spaces (w_ns w))) as [s|] eqn:ES.
    2:{ inversion H; subst. nochange. apply d_dm_space; [exact ER|apply c_space_none; exact ES]. }
    pose proof (c_space_some _ _ _ ES) as CS. destruct id as [sp mn]. cbn [fst snd] in *.
    assert (LK : In mn (sp_models s) <-> exists x, aget ent_eqb (sp, mn) (n_models (w_ns w)) = Some x).
    { rewrite (L sp mn). split; [eauto|]. intros (s' & E & I). rewrite ES in E. inversion E; subst. exact I. }
    destruct (set_has mn (sp_models s)) eqn:EH; cbn [negb] in H.
    2:{ apply set_has_false in EH. 
        assert (EG : aget ent_eqb (sp, mn) (n_models (w_ns w)) = None).
        { destruct (aget ent_eqb (sp, mn) (n_models (w_ns w))) eqn:EG; [|reflexivity]. elim EH. apply LK. eauto. }
        inversion H; subst. nochange. eapply d_dm_missing; [exact ER|exact CS|exact EG]. }
    apply set_has_in, LK in EH as [m EM]. rewrite EM in H.
    destruct (negb (e_rows en =? 0) && negb force) eqn:EB.
    { apply andb_true_iff in EB as [EB1 EB2]. apply negb_true_iff, N.eqb_neq in EB1. apply negb_true_iff in EB2. subst force.
      inversion H; subst. nochange. eapply d_dm_full; eauto. }
    rewrite EC, DC in H. cbn [w_ns with_ns] in H. inversion H; subst.
    exists (DelModel (sp, mn)). split.
    { eapply d_dm; eauto. apply andb_false_iff in EB as [EB|EB]; apply negb_false_iff in EB; [right; apply N.eqb_eq; exact EB|left; exact EB]. }
    split; [|split; [|reflexivity]].
    + intros k. apply (same_space _ _ s _ ES); reflexivity.
    + intros x. cbn. apply edel.
  - (* create user *)
    unfold exec_create_user in H.
    assert (UO : match user_password opts with Some p => user_opts opts p | None => forall p, ~ user_opts opts p end).
    { unfold user_password, user_opts. change (bstr "password"%string) with K_password.
      assert (R : adel bseq K_password opts = [] <-> forall k e, In (k, e) opts -> k = K_password).
      { unfold adel. clear. induction opts as [|[k0 e0] d IH]; cbn [filter fst].
        - split; [intros _ k e []|reflexivity].
        - destruct (bseq K_password k0) eqn:EB; cbn [negb].
          + apply bseq_eq in EB. subst k0. rewrite IH. split.
            * intros Q k e [X|X]; [inversion X; reflexivity|eauto].
            * intros Q k e X. apply (Q k e). right. exact X.
          + split; [discriminate|]. intros Q. apply bseq_neq in EB. elim EB. symmetry. apply (Q k0 e0). left. reflexivity. }
      destruct (dget K_password opts) as [[[]|]|] eqn:ED; try (intros p [X _]; discriminate X).
      destruct (adel bseq K_password opts).
      - split; [reflexivity|]. apply R. reflexivity.
      - intros p0 [_ X]. apply R in X. discriminate X. }
    destruct (user_password opts) as [p|]; [|inversion H; subst; nochange; apply d_cu_options; assumption].
    destruct (aget bseq name (n_users (w_ns w))) as [h|] eqn:EU.
    { inversion H; subst. nochange. eapply d_cu_exists; eauto. }
    rewrite EC, DC in H. cbn [w_ns with_ns] in H. inversion H; subst.
    eexists. split; [eapply d_cu; eauto|]. split; [|split]; intros x; cbn; try reflexivity. apply bput.
  - inversion H; subst. nochange. apply d_au. exact ER.
  - (* drop user *)
    destruct (bseq (se_user se) name) eqn:EB.
    { apply bseq_eq in EB. inversion H; subst. nochange. apply d_du_refused; auto. }
    apply bseq_neq in EB. unfold exec_drop_user in H. destruct (aget bseq name (n_users (w_ns w))) as [h|] eqn:EU.
    2:{ inversion H; subst. nochange. apply d_du_refused; auto. }
    rewrite EC, DC in H. cbn [w_ns with_ns] in H. inversion H; subst.
    exists (DelUser name). split; [eapply d_du; eauto|]. split; [|split]; intros x; cbn; try reflexivity. apply bdel.
Qed.
End Main.
