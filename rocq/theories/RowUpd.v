(** Proofs about UPDATE (RowModel.v against RowSpec.v). *)
From Coq Require Import List NArith ZArith Bool Lia Permutation.
From Verif Require Import Bytes AMap DataModel CodecModel CodecProofs GnsCodecModel GnsModel GnsProofs RowModel RowSpec RowProofs RowTable.
Import ListNotations.
Local Open Scope N_scope.

(** * Rolling back *)

Lemma rollback_get saved : forall m k, NoDup (akeys saved) ->
  aget bseq k (rollback m saved) =
  match aget bseq k saved with
  | Some c => match aget bseq k m with Some _ => Some c | None => None end
  | None => aget bseq k m
  end.
Proof.
  unfold rollback. induction saved as [|[k0 c0] saved IH]; intros m k ND; [reflexivity|].
  cbn [fold_left fst snd aget]. inversion ND; subst. rewrite IH by auto. rewrite aget_rf_update.
  destruct (bseq k k0) eqn:E; [|reflexivity]. apply bseq_eq in E. subst k0.
  rewrite (proj2 (aget_none _ bseq_eq k saved)) by exact H1. reflexivity.
Qed.

Section Upd.
Variable farith : aop -> N -> N -> N.

(** appending to a list column *)
Definition is_append (fs : fieldmap) (a : assign) : Prop :=
  as_op a = AAdd /\ exists f ls, aget bseq (as_lhs a) fs = Some f /\ f_layers f = TsList :: ls.

Lemma class_list t : tclass_eqb (tsel_class t) TcList = true -> t = TsList.
Proof. destruct t; intros H; try discriminate; reflexivity. Qed.

Lemma loop_restores fs asg : forall m saved e m' saved' orig,
  NoDup (map as_lhs asg) -> Forall (fun a => ~ is_append fs a) asg ->
  NoDup (akeys saved) -> (forall a, In a asg -> ~ In (as_lhs a) (akeys saved)) ->
  (forall k, aget bseq k (rollback m saved) = orig k) ->
  upd_loop farith fs asg false m saved = UrErr e m' saved' ->
  forall k, aget bseq k (rollback m' saved') = orig k.
Proof.
  induction asg as [|a asg IH]; intros m saved e m' saved' orig ND NA NS DJ RO H; cbn [upd_loop] in H; [discriminate|].
  unfold f_get in H.
  destruct (aget bseq (as_lhs a) fs) as [f|] eqn:GF; [|inversion H; subst; exact RO].
  destruct (aget bseq (as_lhs a) m) as [c|] eqn:GM; [|inversion H; subst; exact RO].
  destruct (f_layers f) as [|t rest] eqn:EL; [discriminate|].
  inversion ND; subst. inversion NA; subst.
  assert (NI : ~ In (as_lhs a) (akeys saved)) by (apply DJ; left; auto).
  assert (STEP : forall new, upd_loop farith fs asg false (rf_update (as_lhs a) new m) (saved ++ [(as_lhs a, c)]) = UrErr e m' saved' ->
    forall k, aget bseq k (rollback m' saved') = orig k).
  { intros new HL. assert (ND1 : NoDup (akeys (saved ++ [(as_lhs a, c)]))).
    { rewrite akeys_app. cbn. eapply Permutation_NoDup; [apply Permutation_cons_append|]. constructor; auto. }
    eapply IH; [eassumption|eassumption| |  | |exact HL].
    - exact ND1.
    - intros a' Ha'. rewrite akeys_app, in_app_iff. cbn. intros [X|[X|[]]].
      + eapply DJ; eauto. right; auto.
      + apply H2. rewrite X. apply in_map. exact Ha'.
    - intros k. rewrite <- RO, !rollback_get by auto.
      assert (AG : forall k0, aget bseq k0 (saved ++ [(as_lhs a, c)]) =
        match aget bseq k0 saved with Some x => Some x | None => if bseq k0 (as_lhs a) then Some c else None end).
      { clear. intros k0. induction saved as [|[k1 c1] saved IHs]; cbn; [reflexivity|]. destruct (bseq k0 k1); auto. }
      rewrite AG, aget_rf_update. destruct (bseq k (as_lhs a)) eqn:E.
      + apply bseq_eq in E. subst k. rewrite (proj2 (aget_none _ bseq_eq (as_lhs a) saved) NI), GM. reflexivity.
      + destruct (aget bseq k saved); reflexivity. }
  destruct (_ && _ && _).
  { destruct (operator _ _ _ _ _); try discriminate. cbn [andb] in H. eapply STEP. exact H. }
  destruct (_ && _ && _); [eapply STEP; exact H|].
  destruct (tclass_eqb (tsel_class t) TcList) eqn:EC.
  - destruct (as_op a) eqn:EO; cbn [andb] in H; try (inversion H; subst; exact RO).
    exfalso. apply H4. split; auto. apply class_list in EC. subst t. eauto.
  - cbn [andb] in H. inversion H; subst. exact RO.
Qed.

Lemma update_error_restores fs m asg m' e : NoDup (map as_lhs asg) -> Forall (fun a => ~ is_append fs a) asg ->
  update_row farith fs m asg = (m', RoErr e) -> forall k, aget bseq k m' = aget bseq k m.
Proof.
  intros ND NA H. unfold update_row in H. destruct (upd_loop farith fs asg false m []) eqn:E; inversion H; subst.
  apply (loop_restores fs asg m [] e m0 saved (fun k => aget bseq k m) ND NA (NoDup_nil _)
           (fun _ _ X => X) (fun _ => eq_refl) E).
Qed.

(** * Exact arithmetic *)

Lemma u_arith_exact o a b z : exact_z o (Z.of_N a) (Z.of_N b) = Some z -> (0 <= z < 2 ^ 64)%Z ->
  exists ovf, u_arith o a b = Some (Z.to_N z, ovf).
Proof.
  assert (T : two64 = 18446744073709551616) by (vm_compute; reflexivity).
  intros E R. consts. unfold u_arith, exact_z in *. rewrite T. destruct o.
  - inversion E; subst. rewrite N2Z.id. eauto.
  - inversion E; subst. rewrite <- N2Z.inj_add, N2Z.id. rewrite N.mod_small by lia. eauto.
  - inversion E; subst. assert (b <= a) by lia.
    replace (a + 18446744073709551616 - b) with (a - b + 1 * 18446744073709551616) by lia.
    rewrite N.mod_add, N.mod_small by lia. rewrite <- N2Z.inj_sub, N2Z.id by auto. eauto.
  - inversion E; subst. rewrite <- N2Z.inj_mul, N2Z.id. rewrite N.mod_small by lia. eauto.
  - destruct (Z.eqb_spec (Z.of_N b) 0) as [|NZ]; [discriminate|].
    destruct (N.eqb_spec b 0) as [->|NZ2]; [cbn in NZ; lia|].
    inversion E; subst. rewrite <- N2Z.inj_quot, N2Z.id. eauto.
Qed.

Lemma word_exact z : (- 2 ^ 63 <= z < 2 ^ 63)%Z -> word z = Z.to_N (if (z <? 0)%Z then z + 2 ^ 64 else z).
Proof.
  intros R. consts. unfold word. destruct (Z.ltb_spec z 0).
  - f_equal. symmetry. apply (Z.mod_unique_pos z 18446744073709551616 (-1)); lia.
  - rewrite Z.mod_small by lia. reflexivity.
Qed.
Lemma word_sval b : b < 2 ^ 64 -> (Z.to_N (if (sval b <? 0)%Z then sval b + 2 ^ 64 else sval b)) = b.
Proof.
  intros H. unfold sval in *. consts. destruct (N.ltb_spec b 9223372036854775808).
  - rewrite (proj2 (Z.ltb_ge _ _)) by lia. apply N2Z.id.
  - rewrite (proj2 (Z.ltb_lt _ _)) by lia. rewrite Z.sub_add. apply N2Z.id.
Qed.

Lemma s_arith_exact o a b z : b < 2 ^ 64 -> exact_z o (sval a) (sval b) = Some z -> (- 2 ^ 63 <= z < 2 ^ 63)%Z ->
  exists ovf, s_arith o a b = Some (Z.to_N (if (z <? 0)%Z then z + 2 ^ 64 else z), ovf).
Proof.
  intros HB E R. unfold s_arith, exact_z in *. cbv zeta. rewrite (s64_sval a), (s64_sval b).
  destruct o.
  - injection E as <-. rewrite word_sval by exact HB. eexists; reflexivity.
  - injection E as <-. pose proof (word_exact _ R) as W. rewrite W. eexists. reflexivity.
  - injection E as <-. pose proof (word_exact _ R) as W. rewrite W. eexists. reflexivity.
  - injection E as <-. pose proof (word_exact _ R) as W. rewrite W. eexists. reflexivity.
  - destruct (sval b =? 0)%Z; [discriminate|]. injection E as <-.
    pose proof (word_exact _ R) as W. rewrite W. eexists. reflexivity.
Qed.

(** * Exact updates *)

Definition lit_ok (l : lit) : Prop := match l with LUInt w | LSInt w | LFloat w => w < 2 ^ 64 | _ => True end.

Lemma int_cell_u q z c : tsel_class (qsel_tsel q) = TcUInt -> int_cell q z = Some c ->
  (0 <= z < 2 ^ 64)%Z /\ c = CQw q (Z.to_N z) /\ in_range q (Z.to_N z).
Proof.
  intros K H. unfold int_cell in H. destruct (_ && _) eqn:E; [|discriminate]. inversion H; subst.
  apply andb_true_iff in E as [E1 E2]. apply Z.leb_le in E1. apply Z.leb_le in E2.
  destruct q; try discriminate K; cbn [z_min z_max] in *; consts;
    (split; [lia|]; rewrite (proj2 (Z.ltb_ge z 0)) by lia; split; [reflexivity|]; unfold in_range; consts; lia).
Qed.
Lemma int_cell_s q z c : tsel_class (qsel_tsel q) = TcSInt -> int_cell q z = Some c ->
  (- 2 ^ 63 <= z < 2 ^ 63)%Z /\ c = CQw q (Z.to_N (if (z <? 0)%Z then z + 2 ^ 64 else z)) /\
  in_range q (Z.to_N (if (z <? 0)%Z then z + 2 ^ 64 else z)).
Proof.
  intros K H. unfold int_cell in H. destruct (_ && _) eqn:E; [|discriminate]. inversion H; subst. clear H.
  apply andb_true_iff in E as [E1 E2]. apply Z.leb_le in E1. apply Z.leb_le in E2.
  assert (SV : (- 2 ^ 63 <= z < 2 ^ 63)%Z -> sval (Z.to_N (if (z <? 0)%Z then z + 2 ^ 64 else z)) = z).
  { intros R. unfold sval. consts. destruct (Z.ltb_spec z 0).
    - rewrite (proj2 (N.ltb_ge _ _)) by lia. rewrite Z2N.id by lia. lia.
    - rewrite (proj2 (N.ltb_lt _ _)) by lia. rewrite Z2N.id by lia. lia. }
  destruct q; try discriminate K; cbn [z_min z_max] in *;
    (assert (R : (- 2 ^ 63 <= z < 2 ^ 63)%Z) by (clear SV; consts; lia);
     split; [exact R|]; split; [reflexivity|]; unfold in_range; rewrite SV by exact R; clear SV; consts; lia).
Qed.

Lemma widest_class a b : widest a = widest b <-> same_class a b.
Proof. unfold same_class. destruct a, b; cbn; split; intros; congruence. Qed.

Lemma strip_fits ls c c' : fits ls c -> strip c = strip c' -> fits ls c'.
Proof.
  intros F. revert c'. induction F as [b|b|b|q q' w HR HI|ls xs HX IH]; intros c' E;
    destruct c' as [|b'|q2 w2|b'|b'|l]; try discriminate E.
  - constructor.
  - constructor.
  - constructor.
  - inversion E as [[E1 E2]]. subst w2. constructor; auto. apply widest_class in E1.
    unfold same_class in *. congruence.
  - cbn in E. assert (E1 : map strip xs = map strip l) by congruence. clear E. constructor.
    revert l E1. induction xs as [|x xs IHx]; intros [|y l] E1; try discriminate; intros z Hz; [destruct Hz|].
    cbn in E1. injection E1 as E2 E3. destruct Hz as [<-|Hz].
    + apply (IH x); [left; auto|exact E2].
    + eapply IHx; eauto.
      * intros x0 H2. apply HX. right; auto.
      * intros x0 H2. apply IH. right; auto.
Qed.

(** relation between the actual cell and the specified one *)
Definition okay_cell (ls : list tsel) (c : cell) : Prop := c = CNull \/ fits ls c.

Lemma exact_num_ok q o old l c' : exact_num farith q o old l = Some c' -> lit_ok l ->
  exists w, c' = CQw q w /\ in_range q w /\ lit_class l = tsel_class (qsel_tsel q) /\
  match old with
  | None => o = AAssign /\ exists q', lit_cell l = CQw q' w /\ same_class q q'
  | Some a => forall q', same_class q q' ->
      exists ok, operator farith (tsel_class (qsel_tsel q)) o (CQw q' a) l = OrVal ok (CQw q' w)
  end.
Proof.
  intros H HL. unfold exact_num in H.
  destruct (negb _ && _) eqn:EA; [discriminate|].
  assert (WO : forall q' w, same_class q q' -> word_of (tsel_class (qsel_tsel q)) (CQw q' w) = Some (q', w)).
  { intros q' w SC. cbn [word_of]. rewrite (proj2 (tclass_eqb_eq _ _)) by (symmetry; exact SC). reflexivity. }
  destruct (tsel_class (qsel_tsel q)) eqn:EK; try discriminate; destruct l as [b|b|b|b|b|b]; try discriminate;
    cbn [lit_ok] in HL.
  - (* unsigned *)
    destruct (exact_z _ _ _) as [z|] eqn:EZ; [|discriminate].
    destruct (int_cell_u q z c' EK H) as (R & -> & IR).
    exists (Z.to_N z). split; [reflexivity|]. split; [exact IR|]. split; [reflexivity|]. destruct old as [a|].
    + intros q' SC. destruct (u_arith_exact _ _ _ _ EZ R) as [ovf EU]. cbn [operator].
      rewrite WO, EU by auto. eauto.
    + destruct o; try discriminate. split; [reflexivity|]. cbn in EZ. inversion EZ; subst.
      rewrite N2Z.id. exists QU64. split; [reflexivity|]. unfold same_class. rewrite EK. reflexivity.
  - (* signed *)
    destruct (exact_z _ _ _) as [z|] eqn:EZ; [|discriminate].
    destruct (int_cell_s q z c' EK H) as (R & -> & IR).
    eexists. split; [reflexivity|]. split; [exact IR|]. split; [reflexivity|]. destruct old as [a|].
    + intros q' SC. destruct (s_arith_exact _ _ _ _ HL EZ R) as [ovf EU]. cbn [operator].
      rewrite WO, EU by auto. eauto.
    + destruct o; try discriminate. split; [reflexivity|]. cbn in EZ. inversion EZ; subst.
      rewrite word_sval by auto. exists QS64. split; [reflexivity|]. unfold same_class. rewrite EK. reflexivity.
  - (* float *)
    cbv zeta in H.
    set (w := if match o with AAssign => true | _ => false end then b
              else farith o (match old with Some a => a | None => 0 end) b) in *.
    destruct (w mod 2 ^ 63 <=? _) eqn:EL; [|discriminate]. inversion H; subst c'.
    apply N.leb_le in EL.
    exists w. split; [reflexivity|]. split.
    { destruct q; try discriminate EK; unfold in_range.
      - exact EL.
      - change 0x7FF0000000000000 with (N.succ 0x7FEFFFFFFFFFFFFF). apply N.lt_succ_r. exact EL. }
    split; [reflexivity|].
    destruct old as [a|].
    + intros q' SC. cbn [operator]. rewrite WO by auto. subst w. destruct o; eauto.
    + destruct o; try discriminate. split; [reflexivity|]. subst w. exists QF64. split; [reflexivity|].
      unfold same_class. rewrite EK. reflexivity.
Qed.

Lemma exact_assign_scalar t o c l : exact_assign farith [t] o c l =
  match tsel_qsel t with
  | Some q =>
      match c with
      | CNull => exact_num farith q o None l
      | CQw _ a => exact_num farith q o (Some a) l
      | _ => None
      end
  | None =>
      match t, o, l, c with
      | TsBool, AAssign, LBool b, _ => Some (CBool b)
      | TsBin, AAssign, LBin b, _ => Some (CBin b)
      | TsBin, AAdd, LBin b, CBin a => Some (CBin (a ++ b))
      | TsStr, AAssign, LStr b, _ => Some (CStr b)
      | TsStr, AAdd, LStr b, CStr a => Some (CStr (a ++ b))
      | _, _, _, _ => None
      end
  end.
Proof. destruct t; reflexivity. Qed.

(** one assignment whose exact result exists is carried out exactly *)
Lemma assign_exact fs a asg m saved f c c1 c1' :
  aget bseq (as_lhs a) fs = Some f -> aget bseq (as_lhs a) m = Some c ->
  okay_cell (f_layers f) c -> strip c = strip c1 -> lit_ok (as_rhs a) ->
  exact_assign farith (f_layers f) (as_op a) c1 (as_rhs a) = Some c1' ->
  exists c' saved', strip c' = strip c1' /\ fits (f_layers f) c' /\
    upd_loop farith fs (a :: asg) false m saved = upd_loop farith fs asg false (rf_update (as_lhs a) c' m) saved'.
Proof.
  intros GF GM OC SC HL H. cbn [upd_loop]. unfold f_get. rewrite GF, GM.
  destruct (f_layers f) as [|t rest] eqn:EL; [discriminate|].
  destruct rest as [|t1 rest].
  - (* scalar *)
    rewrite exact_assign_scalar in H.
    destruct (tsel_qsel t) as [q|] eqn:EQ.
    + apply tsel_qsel_some in EQ. subst t.
      assert (NL : tclass_eqb (tsel_class (qsel_tsel q)) TcList = false) by (destruct q; reflexivity).
      rewrite NL. cbn [negb]. rewrite andb_true_r.
      destruct c1 as [| |q1 w1| | |]; try discriminate.
      * destruct c; try discriminate SC.
        destruct (exact_num_ok _ _ _ _ _ H HL) as (w & -> & IR & LC & EO & q' & LQ & SQ).
        rewrite LC, (proj2 (tclass_eqb_eq _ _) eq_refl), EO, LQ. cbn [cell_init negb andb].
        exists (CQw q' w). eexists. split; [cbn; f_equal; symmetry; apply widest_class; auto|].
        split; [constructor; auto|reflexivity].
      * destruct c as [| |q2 w2| | |]; try discriminate SC. inversion SC as [[SC1 SC2]]. subst w2.
        assert (SQ2 : same_class q q2).
        { destruct OC as [|F]; [discriminate|]. inversion F; subst.
          match goal with X : qsel_tsel ?a = qsel_tsel q, Y : same_class ?a q2 |- _ =>
            unfold same_class in *; rewrite <- X; exact Y end. }
        destruct (exact_num_ok _ _ _ _ _ H HL) as (w & -> & IR & LC & OP).
        destruct (OP q2 SQ2) as [ok EO].
        rewrite LC, (proj2 (tclass_eqb_eq _ _) eq_refl). cbn [cell_init andb]. rewrite EO.
        exists (CQw q2 w). eexists. split; [cbn; f_equal; symmetry; apply widest_class; auto|].
        split; [constructor; auto|reflexivity].
    + assert (B : exists c', strip c' = strip c1' /\ fits [t] c' /\ tsel_class t <> TcList /\
          lit_class (as_rhs a) = tsel_class t /\
          (c = CNull -> as_op a = AAssign /\ lit_cell (as_rhs a) = c') /\
          (c <> CNull -> exists ok, operator farith (tsel_class t) (as_op a) c (as_rhs a) = OrVal ok c')).
      { destruct OC as [-> | F].
        - destruct c1; try discriminate SC.
          destruct t; try discriminate; destruct (as_op a); try discriminate; destruct (as_rhs a); try discriminate;
            inversion H; subst; eexists; (split; [reflexivity|]);
            (split; [constructor|]); (split; [discriminate|]); (split; [reflexivity|]); split; auto; congruence.
        - destruct t; try discriminate EQ; try (inversion F; destruct q; discriminate);
            try (inversion F; subst; match goal with X : qsel_tsel ?q = _ |- _ => destruct q; discriminate X end).
          all: inversion F; subst; try (match goal with X : qsel_tsel ?q = _ |- _ => destruct q; discriminate X end).
          all: destruct c1; try discriminate SC.
          all: destruct (as_op a); try discriminate; destruct (as_rhs a); try discriminate;
            inversion H; inversion SC; subst; eexists; (split; [reflexivity|]);
            (split; [constructor|]); (split; [discriminate|]); (split; [reflexivity|]); split; try congruence;
            intros _; eexists; reflexivity. }
      destruct B as (c' & S1 & F1 & NL & LC & BN & BV).
      assert (NL2 : tclass_eqb (tsel_class t) TcList = false).
      { destruct (tclass_eqb (tsel_class t) TcList) eqn:E; auto. apply tclass_eqb_eq in E. congruence. }
      rewrite LC, (proj2 (tclass_eqb_eq _ _) eq_refl), NL2. cbn [negb andb].
      destruct (cell_init c) eqn:EI.
      * destruct BV as [ok EO]; [destruct c; discriminate|]. rewrite EO. cbn [andb].
        exists c'. eexists. split; [exact S1|]. split; [exact F1|reflexivity].
      * destruct c; try discriminate. destruct BN as [EO EC]; [reflexivity|]. rewrite EO, EC. cbn [negb andb].
        exists c'. eexists. split; [exact S1|]. split; [exact F1|reflexivity].
  - (* append *)
    unfold exact_assign in H. destruct t; try discriminate. destruct rest; try discriminate.
    destruct (as_op a) eqn:EO; try discriminate. destruct c1 as [| | | | |xs1]; try discriminate.
    destruct c as [| | | | |xs]; try discriminate SC.
    set (e := match tsel_qsel t1 with
              | Some q => exact_num farith q AAssign None (as_rhs a)
              | None => match t1, as_rhs a with
                        | TsBool, LBool b => Some (CBool b) | TsBin, LBin b => Some (CBin b)
                        | TsStr, LStr b => Some (CStr b) | _, _ => None end
              end) in *.
    destruct e as [e1|] eqn:EE; [|discriminate]. inversion H; subst c1'. clear H.
    assert (B : strip (lit_cell (as_rhs a)) = strip e1 /\ fits [t1] (lit_cell (as_rhs a)) /\
                lit_class (as_rhs a) = tsel_class t1).
    { subst e. destruct (tsel_qsel t1) as [q|] eqn:EQ.
      - apply tsel_qsel_some in EQ. subst t1.
        destruct (exact_num_ok _ _ _ _ _ EE HL) as (w & -> & IR & LC & _ & q' & LQ & SQ).
        rewrite LQ. split; [cbn; f_equal; symmetry; apply widest_class; auto|]. split; [constructor; auto|exact LC].
      - destruct t1; try discriminate; destruct (as_rhs a); try discriminate; inversion EE; subst;
          (split; [reflexivity|]); (split; [constructor|reflexivity]). }
    destruct B as (S1 & F1 & LC). cbn [tsel_class].
    assert (NLC : tclass_eqb TcList (lit_class (as_rhs a)) = false) by (destruct (as_rhs a); reflexivity).
    rewrite NLC. cbn [andb]. rewrite (proj2 (tclass_eqb_eq TcList TcList) eq_refl). cbn [andb].
    rewrite LC, (proj2 (tclass_eqb_eq _ _) eq_refl).
    exists (CList (xs ++ [lit_cell (as_rhs a)])), saved. split; [|split; [|reflexivity]].
    + cbn in SC. inversion SC as [SC1]. cbn. rewrite !map_app, SC1. cbn. rewrite S1. reflexivity.
    + destruct OC as [|F]; [discriminate|]. inversion F; subst. constructor. intros x Hx.
      apply in_app_iff in Hx as [Hx|[<-|[]]]; [match goal with X : forall y, In y xs -> _ |- _ => apply X; exact Hx end|exact F1].
Qed.

Definition ostrip (o : option cell) : option cell := match o with Some c => Some (strip c) | None => None end.

(** a row whose columns have the declared types *)
Definition row_ok (fs : fieldmap) (m : rfields) : Prop :=
  forall k f c, aget bseq k fs = Some f -> aget bseq k m = Some c -> accepts f c.

Theorem update_exact fs asg : forall m saved row row',
  row_ok fs m -> Forall (fun a => lit_ok (as_rhs a)) asg ->
  (forall k, ostrip (aget bseq k m) = ostrip (row k)) ->
  exact_update farith fs asg row = Some row' ->
  exists m', upd_loop farith fs asg false m saved = UrDone m' /\ row_ok fs m' /\
    forall k, ostrip (aget bseq k m') = ostrip (row' k).
Proof.
  induction asg as [|a asg IH]; intros m saved row row' RO HL RS H; cbn [exact_update] in H.
  - inversion H; subst. exists m. split; [reflexivity|]. auto.
  - destruct (aget bseq (as_lhs a) fs) as [f|] eqn:GF; [|discriminate].
    destruct (row (as_lhs a)) as [c1|] eqn:GR; [|discriminate].
    destruct (exact_assign farith (f_layers f) (as_op a) c1 (as_rhs a)) as [c1'|] eqn:EA; [|discriminate].
    inversion HL; subst.
    pose proof (RS (as_lhs a)) as RS1. rewrite GR in RS1. cbn [ostrip] in RS1.
    destruct (aget bseq (as_lhs a) m) as [c|] eqn:GM; [|discriminate]. cbn [ostrip] in RS1. inversion RS1 as [SC].
    assert (OC : okay_cell (f_layers f) c) by (destruct (RO _ _ _ GF GM) as [[? _]|?]; [left|right]; auto).
    destruct (assign_exact fs a asg m saved f c c1 c1' GF GM OC SC H2 EA) as (c' & saved' & S1 & F1 & EQ).
    rewrite EQ. eapply IH; eauto.
    + intros k f0 c0 G0 G1. rewrite aget_rf_update in G1. destruct (bseq k (as_lhs a)) eqn:E.
      * apply bseq_eq in E. subst k. rewrite GM in G1. inversion G1; subst. rewrite GF in G0. inversion G0; subst.
        right. exact F1.
      * eapply RO; eauto.
    + intros k. rewrite aget_rf_update. destruct (bseq k (as_lhs a)) eqn:E; [|apply RS].
      apply bseq_eq in E. subst k. rewrite GM. cbn. f_equal. exact S1.
Qed.

(** ** No value is ever refused *)

(** an assignment to a column that exists, is not null and is of the literal's class, with an operator
    the class has, and not a division of integers by zero *)
Definition plain (fs : fieldmap) (m : rfields) (a : assign) : Prop :=
  exists f t c, aget bseq (as_lhs a) fs = Some f /\ f_layers f = [t] /\
    aget bseq (as_lhs a) m = Some c /\ cell_class c = tsel_class t /\ c <> CNull /\
    lit_class (as_rhs a) = tsel_class t /\
    match as_op a, as_rhs a with
    | AAssign, _ => True
    | _, (LUInt n | LSInt n) => as_op a = ADiv -> s64 n <> 0%Z
    | _, LFloat _ => True
    | AAdd, (LBin _ | LStr _) => True
    | _, _ => False
    end.

Lemma operator_total t o c l : cell_class c = tsel_class t -> c <> CNull -> lit_class l = tsel_class t ->
  tsel_class t <> TcList ->
  match o, l with
  | AAssign, _ => True
  | _, (LUInt n | LSInt n) => o = ADiv -> s64 n <> 0%Z
  | _, LFloat _ => True
  | AAdd, (LBin _ | LStr _) => True
  | _, _ => False
  end ->
  exists ok c', operator farith (tsel_class t) o c l = OrVal ok c' /\ cell_class c' = tsel_class t /\ c' <> CNull.
Proof.
  intros HC HN HL NL HO. rewrite <- HL in *.
  assert (WO : match c with CQw q w => word_of (lit_class l) c = Some (q, w) | _ => True end).
  { destruct c; auto. cbn [word_of]. rewrite (proj2 (tclass_eqb_eq _ _)); auto. }
  destruct l as [b|b|b|b|b|b]; cbn [lit_class] in *;
    destruct c as [|x|q w|x|x|x]; try congruence; try discriminate HC; try (destruct q; discriminate HC);
    cbn [operator] in *.
  - destruct o; try contradiction. eexists _, _. split; [reflexivity|]. split; [reflexivity|discriminate].
  - rewrite WO. assert (exists r, u_arith o w b = Some r) as [[r ovf] ->].
    { destruct o; cbn; eauto. destruct (N.eqb_spec b 0) as [->|]; eauto. exfalso. apply HO; reflexivity. }
    eexists _, _. split; [reflexivity|]. split; [exact HC|discriminate].
  - rewrite WO. assert (exists r, s_arith o w b = Some r) as [[r ovf] ->].
    { unfold s_arith. destruct o; cbn; eauto. destruct (Z.eqb_spec (s64 b) 0) as [E|]; eauto. exfalso. apply HO; auto. }
    eexists _, _. split; [reflexivity|]. split; [exact HC|discriminate].
  - rewrite WO. eexists _, _. split; [reflexivity|]. split; [exact HC|discriminate].
  - destruct o; try contradiction; eexists _, _; (split; [reflexivity|]); split; try reflexivity; discriminate.
  - destruct o; try contradiction; eexists _, _; (split; [reflexivity|]); split; try reflexivity; discriminate.
Qed.

Theorem update_never_refuses fs asg : forall m saved, Forall (plain fs m) asg ->
  exists m', upd_loop farith fs asg false m saved = UrDone m'.
Proof.
  induction asg as [|a asg IH]; intros m saved F; cbn [upd_loop]; [eauto|].
  inversion F; subst. destruct H1 as (f & t & c & GF & EL & GM & HC & HN & HL & HO).
  unfold f_get. rewrite GF, GM, EL, HL, (proj2 (tclass_eqb_eq _ _) eq_refl).
  assert (NL : tsel_class t <> TcList) by (rewrite <- HL; destruct (as_rhs a); discriminate).
  assert (NL2 : tclass_eqb (tsel_class t) TcList = false).
  { destruct (tclass_eqb (tsel_class t) TcList) eqn:E; auto. apply tclass_eqb_eq in E. congruence. }
  rewrite NL2. assert (EI : cell_init c = true) by (destruct c; auto; congruence). rewrite EI. cbn [andb negb].
  destruct (operator_total t (as_op a) c (as_rhs a) HC HN HL NL HO) as (ok & c' & EO & HC' & HN').
  rewrite EO. cbn [andb]. apply IH.
  rewrite Forall_forall in *. intros a' Ha'. destruct (H2 _ Ha') as (f2 & t2 & c2 & G1 & G2 & G3 & G4 & G5 & G6).
  destruct (bseq (as_lhs a') (as_lhs a)) eqn:E.
  - pose proof E as E'. apply bseq_eq in E. exists f2, t2, c'. rewrite aget_rf_update, E', G3.
    rewrite E, GF in G1. inversion G1; subst f2. rewrite EL in G2. inversion G2; subst t2.
    rewrite E, GF. tauto.
  - exists f2, t2, c2. rewrite aget_rf_update, E. tauto.
Qed.
End Upd.
