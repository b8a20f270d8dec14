(** Which statements are undefined behaviour (RowModel.v) *)
From Coq Require Import List NArith ZArith Bool Lia Permutation.
From Verif Require Import Bytes AMap DataModel CodecModel CodecProofs GnsCodecModel GnsModel GnsProofs RowModel RowSpec RowProofs RowTable RowUpd RowAlter RowLemmas UbSpec.
Import ListNotations.
Local Open Scope N_scope.

Section Ub.
  Variable farith : aop -> N -> N -> N.
  Variable order : fieldmap -> fieldmap.

  Lemma class_bin t : tsel_class t = TcBin -> t = TsBin.
  Proof. destruct t; intros E; try discriminate E; reflexivity. Qed.
  Lemma class_str t : tsel_class t = TcStr -> t = TsStr.
  Proof. destruct t; intros E; try discriminate E; reflexivity. Qed.

  (** one assignment *)
  Lemma operator_ub k o c l : operator farith k o c l = OrUb <->
    (k = TcBin /\ (exists b, l = LBin b) \/ k = TcStr /\ (exists b, l = LStr b)) /\ o = AAdd /\ (forall x, c <> CBin x) /\ (forall x, c <> CStr x).
  Proof.
    split.
    - destruct k, l; cbn [operator]; intros E; try discriminate E.
      + destruct o; discriminate E.
      + destruct (word_of TcUInt c) as [[q w']|]; [|discriminate E]. destruct (u_arith _ _ _) as [[? ?]|]; discriminate E.
      + destruct (word_of TcSInt c) as [[q w']|]; [|discriminate E]. destruct (s_arith _ _ _) as [[? ?]|]; discriminate E.
      + destruct (word_of TcFloat c) as [[q w']|]; discriminate E.
      + destruct o; try discriminate E. destruct c; try discriminate E; split; eauto; split; auto; split; intros x D; discriminate D.
      + destruct o; try discriminate E. destruct c; try discriminate E; split; eauto; split; auto; split; intros x D; discriminate D.
    - intros ([(-> & b & ->)|(-> & b & ->)] & -> & N1 & N2); cbn [operator]; destruct c; try reflexivity; try (exfalso; eapply N1; reflexivity); exfalso; eapply N2; reflexivity.
  Qed.
  Inductive one := Go (m k : rfields) | GUb | GStop (f : rfields -> upd_res).
  Lemma loop_one fs a m : (forall k f, aget bseq k fs = Some f -> layers_ok (f_layers f)) -> exists o,
    (forall asg sv, upd_loop farith fs (a :: asg) false m sv = match o with Go m' k => upd_loop farith fs asg false m' (sv ++ k) | GUb => UrUb | GStop f => f sv end) /\
    (forall f sv, o = GStop f -> f sv <> UrUb /\ forall z, f sv <> UrDone z) /\ (o = GUb <-> blind fs m a).
  Proof.
    intros LK. cbn [upd_loop]. unfold f_get.
    assert (STOP : forall f, (forall sv, f sv <> UrUb /\ forall z, f sv <> UrDone z) -> (forall g sv, GStop f = GStop g -> g sv <> UrUb /\ forall z, g sv <> UrDone z)).
    { intros f F g sv E. injection E as <-. apply F. }
    destruct (aget bseq (as_lhs a) fs) as [f|] eqn:GF.
    2: { exists (GStop (fun sv => UrErr EField m sv)). split; [reflexivity|]. split; [apply STOP; intros sv; split; [|intros z]; intros D; discriminate D|]. split; [intros D; discriminate D|intros B; inversion B; congruence]. }
    destruct (aget bseq (as_lhs a) m) as [c|] eqn:GM.
    2: { exists (GStop (fun sv => UrErr EField m sv)). split; [reflexivity|]. split; [apply STOP; intros sv; split; [|intros z]; intros D; discriminate D|]. split; [intros D; discriminate D|intros B; inversion B; congruence]. }
    pose proof (LK _ _ GF) as LO. destruct (f_layers f) as [|t rest] eqn:EL; [inversion LO|].
    (* a blind append, with what is known here *)
    assert (BL : blind fs m a <-> as_op a = AAdd /\
      ((t = TsList /\ (exists t1 ls, rest = t1 :: ls /\ tsel_class t1 = lit_class (as_rhs a)) /\ (forall xs, c <> CList xs)) \/
       (rest = [] /\ (exists b, t = TsBin /\ as_rhs a = LBin b \/ t = TsStr /\ as_rhs a = LStr b) /\ c <> CNull /\ (forall x, c <> CBin x) /\ (forall x, c <> CStr x)))).
    { split.
      - intros [f' t' ls' c' G1 G2 G3 G4 G5 G6|f' c' b' G1 G2 G4 G5 G6 G7 G8]; rewrite GF in G1; injection G1 as <-; rewrite EL in G2; rewrite GM in G5; injection G5 as <-; (split; [exact G4|]).
        + injection G2 as -> ->. left. eauto 6.
        + right. destruct G2 as [[G2 G3]|[G2 G3]]; injection G2 as -> ->; eauto 8.
      - intros (O & [(-> & (t1 & ls & -> & C) & X)|(-> & (b & X) & Y & Z & W)]).
        + eapply blind_list; eauto.
        + eapply (blind_bytes _ _ _ f c b); eauto. rewrite EL. destruct X as [[-> X]|[-> X]]; auto. }
    destruct (tclass_eqb (tsel_class t) (lit_class (as_rhs a)) && negb (tclass_eqb (tsel_class t) TcList) && cell_init c) eqn:E1.
    { apply andb_true_iff in E1 as [E1 CI]. apply andb_true_iff in E1 as [E1 E2]. apply tclass_eqb_eq in E1. apply negb_true_iff in E2.
      assert (NL : t <> TsList) by (intros ->; discriminate E2).
      assert (R0 : rest = []) by (inversion LO; subst; [reflexivity|congruence]). subst rest.
      assert (NC : c <> CNull) by (intros ->; discriminate CI).
      assert (OB : operator farith (tsel_class t) (as_op a) c (as_rhs a) = OrUb <-> blind fs m a).
      { rewrite operator_ub, BL. split.
        - intros (K & -> & N1 & N2). split; [reflexivity|]. right. split; [reflexivity|]. split; [|auto].
          destruct K as [(K & b & L)|(K & b & L)]; exists b; [left; split; [apply class_bin; exact K|exact L]|right; split; [apply class_str; exact K|exact L]].
        - intros (-> & [(D & _)|(_ & (b & X) & _ & N1 & N2)]); [congruence|]. destruct X as [[-> ->]|[-> ->]]; split; eauto. }
      destruct (operator farith (tsel_class t) (as_op a) c (as_rhs a)) as [ok new| |] eqn:EO.
      - exists (Go (rf_update (as_lhs a) new m) [(as_lhs a, c)]). split; [reflexivity|]. split; [intros g sv D; discriminate D|]. rewrite <- OB. split; intros D; discriminate D.
      - exists (GStop (fun _ => UrPanic m)). split; [reflexivity|]. split; [apply STOP; intros sv; split; [|intros z]; intros D; discriminate D|]. rewrite <- OB. split; intros D; discriminate D.
      - exists GUb. split; [reflexivity|]. split; [intros g sv D; discriminate D|]. rewrite <- OB. split; reflexivity. }
    destruct (tclass_eqb (tsel_class t) (lit_class (as_rhs a)) && negb (cell_init c) && match as_op a with AAssign => true | _ => false end) eqn:E3.
    { apply andb_true_iff in E3 as [_ E3]. exists (Go (rf_update (as_lhs a) (lit_cell (as_rhs a)) m) [(as_lhs a, c)]). split; [reflexivity|]. split; [intros g sv D; discriminate D|].
      rewrite BL. split; [intros D; discriminate D|]. intros (O & _). rewrite O in E3. discriminate E3. }
    destruct (tclass_eqb (tsel_class t) TcList && match as_op a with AAdd => true | _ => false end) eqn:E4.
    { apply andb_true_iff in E4 as [E4 O]. apply class_list in E4. subst t. assert (OP : as_op a = AAdd) by (destruct (as_op a); discriminate O || reflexivity).
      destruct rest as [|t1 rest]; [inversion LO; subst; [congruence|]; match goal with X : layers_ok [] |- _ => inversion X end|].
      destruct (tclass_eqb (tsel_class t1) (lit_class (as_rhs a))) eqn:E5.
      - apply tclass_eqb_eq in E5. assert (X : (forall xs, c <> CList xs) \/ exists xs, c = CList xs) by (destruct c; eauto; left; intros xs D; discriminate D).
        destruct X as [X|(xs & ->)].
        + exists GUb. split; [destruct c as [| | | | |l]; try reflexivity; destruct (X l eq_refl)|]. split; [intros g sv D; discriminate D|]. split; [|reflexivity]. intros _. apply BL. split; [exact OP|]. left. eauto 6.
        + exists (Go (rf_update (as_lhs a) (CList (xs ++ [lit_cell (as_rhs a)])) m) []). split; [intros asg sv; rewrite app_nil_r; reflexivity|]. split; [intros g sv D; discriminate D|].
          rewrite BL. split; [intros D; discriminate D|]. intros (_ & [(_ & _ & D)|(D & _)]); [destruct (D xs eq_refl)|discriminate D].
      - exists (GStop (fun sv => UrErr EValid m sv)). split; [reflexivity|]. split; [apply STOP; intros sv; split; [|intros z]; intros D; discriminate D|].
        rewrite BL. split; [intros D; discriminate D|]. intros (_ & [(_ & (u & ls & E & C) & _)|(D & _)]); [|discriminate D]. injection E as <- <-.
        rewrite C in E5. rewrite (proj2 (tclass_eqb_eq _ _) eq_refl) in E5. discriminate E5. }
    exists (GStop (fun sv => UrErr EValid m sv)). split; [reflexivity|]. split; [apply STOP; intros sv; split; [|intros z]; intros D; discriminate D|].
    rewrite BL. split; [intros D; discriminate D|]. intros (O & [(-> & _)|(-> & (b & X) & NC & _)]).
    - rewrite O in E4. discriminate E4.
    - assert (CI : cell_init c = true) by (destruct c; reflexivity || congruence). rewrite CI in E1. destruct X as [[-> X]|[-> X]]; rewrite X in E1; discriminate E1.
  Qed.
  Lemma loop_done_sv fs p : (forall k f, aget bseq k fs = Some f -> layers_ok (f_layers f)) -> forall m sv m', upd_loop farith fs p false m sv = UrDone m' ->
    forall sv', upd_loop farith fs p false m sv' = UrDone m'.
  Proof.
    intros LK. induction p as [|a p IH]; intros m sv m' D sv'; [exact D|]. destruct (loop_one fs a m LK) as (o & RUN & ST & _). rewrite RUN in D. rewrite RUN.
    destruct o as [m1 k| |f]; [eapply IH; exact D|discriminate D|]. destruct (ST f sv eq_refl) as [_ N]. destruct (N _ D).
  Qed.
  Lemma loop_ub fs asg : (forall k f, aget bseq k fs = Some f -> layers_ok (f_layers f)) -> forall m saved,
    upd_loop farith fs asg false m saved = UrUb <->
    exists p a r m', asg = p ++ a :: r /\ (forall sv, upd_loop farith fs p false m sv = UrDone m') /\ blind fs m' a.
  Proof.
    intros LK. induction asg as [|a asg IH]; intros m saved.
    { cbn [upd_loop]. split; [intros D; discriminate D|]. intros ([|x p] & a & r & m' & E & _); discriminate E. }
    destruct (loop_one fs a m LK) as (o & RUN & ST & BL). rewrite RUN. split.
    - destruct o as [m1 k| |f]; intros U.
      + apply IH in U as (p & b & r & m' & -> & D & B). exists (a :: p), b, r, m'. split; [reflexivity|]. split; [|exact B]. intros sv. rewrite RUN. apply D.
      + exists [], a, asg, m. split; [reflexivity|]. split; [intros sv; reflexivity|]. apply BL. reflexivity.
      + destruct (ST f saved eq_refl) as [N _]. contradiction.
    - intros ([|x p] & b & r & m' & E & D & B); cbn [app] in E; injection E as -> ->.
      + specialize (D []). cbn [upd_loop] in D. injection D as <-. apply BL in B. rewrite B. reflexivity.
      + destruct o as [m1 k| |f].
        * apply IH. exists p, b, r, m'. split; [reflexivity|]. split; [|exact B]. intros sv.
          eapply loop_done_sv; [exact LK|]. specialize (D []). rewrite RUN in D. exact D.
        * reflexivity.
        * specialize (D []). rewrite RUN in D. destruct (ST f [] eq_refl) as [_ N]. destruct (N _ D).
  Qed.
  Lemma update_ub fs m asg : (forall k f, aget bseq k fs = Some f -> layers_ok (f_layers f)) ->
    snd (update_row farith fs m asg) = RoUb <-> exists p a r m', asg = p ++ a :: r /\ update_row farith fs m p = (m', RoOk) /\ blind fs m' a.
  Proof.
    intros LK. unfold update_row at 1. assert (E : forall x, snd (match x with UrDone m' => (m', RoOk) | UrErr e m' saved => (rollback m' saved, RoErr e) | UrPanic m' => (m', RoPanic) | UrUb => (m, RoUb) end) = RoUb <-> x = UrUb).
    { intros x. destruct x; cbn [snd]; split; intros D; discriminate D || reflexivity. }
    rewrite E, loop_ub by exact LK. split; intros (p & a & r & m' & -> & D & B); exists p, a, r, m'; (split; [reflexivity|]; split; [|exact B]).
    - unfold update_row. rewrite (D []). reflexivity.
    - unfold update_row in D. destruct (upd_loop farith fs p false m []) eqn:Q; try discriminate D. injection D as <-. intros sv. eapply loop_done_sv; [exact LK|exact Q].
  Qed.

  Variable order_perm : forall l, Permutation (order l) l.
  Lemma lay_layers lay : lay_ok lay -> forall k f, aget bseq k (lo_fields lay) = Some f -> layers_ok (f_layers f).
  Proof. intros (_ & L2 & _). rewrite Forall_forall in L2. intros c f GC. apply (aget_in _ bseq_eq) in GC. apply (L2 _ GC). Qed.
  (** only an UPDATE *)
  Lemma step_ub s q : ginv s -> m_iffy s = false -> snd (rstep farith order s q) = RoUb ->
    exists w asg, q = RUpdate w asg.
  Proof.
    intros GI F. destruct q as [d|w asg|w|w cols|cols n|k ok]; cbn [rstep]; [| eauto | | | |].
    - unfold exec_insert. intros D. exfalso. revert D. repeat match goal with |- context [match ?x with _ => _ end] => destruct x end; cbn [snd]; intros D; discriminate D.
    - unfold exec_delete. intros D. exfalso. revert D. repeat match goal with |- context [match ?x with _ => _ end] => destruct x end; cbn [snd]; intros D; discriminate D.
    - unfold exec_select. destruct (resolve_where (m_lay s) w) as [x|]; [|intros D; discriminate D]. destruct (aget pkey_eqb (lit_key x) (m_idx s)) as [i|] eqn:G; [|intros D; discriminate D].
      destruct GI as [IL IN IR]. destruct (IR _ _ G) as (o & E & K). rewrite E. cbv zeta. destruct (read_cols _ _ _ _); intros D; discriminate D.
    - unfold exec_select_all. destruct (match cols with None => false | Some l => _ end); [intros D; discriminate D|]. destruct (scan_rows _ _ _ _ _) as [objs [rows| |]]; intros D; discriminate D.
    - unfold exec_alter. intros D. exfalso. revert D. repeat match goal with |- context [match ?x with _ => _ end] => destruct x end; cbn [snd]; intros D; discriminate D.
  Qed.
  (** the row an UPDATE leaves *)
  Lemma update_row_after s w asg k m : reach s -> asked (m_lay s) w = Some k -> rows_of s k = Some m ->
    snd (rstep farith order s (RUpdate w asg)) = snd (update_row farith (lo_fields (m_lay s)) m asg) /\
    rows_of (fst (rstep farith order s (RUpdate w asg))) k = Some (fst (update_row farith (lo_fields (m_lay s)) m asg)).
  Proof.
    intros [GI ND IF] A R. pose proof (update_cases farith order s w asg GI IF) as U. rewrite A in U.
    destruct (aget pkey_eqb k (m_idx s)) as [i|] eqn:G.
    2: { unfold rows_of in R. rewrite G in R. discriminate R. }
    destruct U as (o & E & K & RO & U). rewrite R in RO. injection RO as ->.
    destruct (update_row farith (lo_fields (m_lay s)) (ro_fields o) asg) as [m' r]. cbn [fst snd].
    destruct r; rewrite U; (split; [reflexivity|]); unfold rows_of; cbn; rewrite G; rewrite (nth_upd_same _ _ _ _ E); reflexivity.
  Qed.

  (** ** without ALTER: list columns that are not nullable hold lists *)
  Definition fl (fs : fieldmap) (k : bytes) (c : cell) : Prop :=
    forall f ls, aget bseq k fs = Some f -> f_null f = false -> f_layers f = TsList :: ls -> exists xs, c = CList xs.
  Definition row_lists (fs : fieldmap) (m : rfields) : Prop := forall k c, aget bseq k m = Some c -> fl fs k c.
  Lemma row_lists_put fs m k new : row_lists fs m -> fl fs k new -> row_lists fs (rf_update k new m).
  Proof.
    intros R HN k' c GM. rewrite aget_rf_update in GM. destruct (bseq k' k) eqn:E; [|eapply R; eauto].
    apply bseq_eq in E. subst k'. destruct (aget bseq k m); [|discriminate GM]. injection GM as <-. exact HN.
  Qed.
  Lemma rollback_lists fs saved : forall m, row_lists fs m -> (forall k c, In (k, c) saved -> fl fs k c) -> row_lists fs (rollback m saved).
  Proof.
    unfold rollback. induction saved as [|[k c] saved IH]; intros m R HS; [exact R|]. cbn [fold_left fst snd].
    apply IH; [apply row_lists_put; [exact R|apply HS; left; reflexivity]|]. intros k' c' Hin. apply HS. right; exact Hin.
  Qed.
  Lemma loop_lists fs asg : forall rb m saved, row_lists fs m -> (forall k c, In (k, c) saved -> fl fs k c) ->
    match upd_loop farith fs asg rb m saved with
    | UrDone m' | UrPanic m' => row_lists fs m'
    | UrErr _ m' saved' => row_lists fs (rollback m' saved')
    | UrUb => True
    end.
  Proof.
    induction asg as [|a asg IH]; intros rb m saved R HS; cbn [upd_loop].
    { destruct rb; [apply rollback_lists; auto|exact R]. }
    destruct rb; [apply rollback_lists; auto|]. unfold f_get.
    destruct (aget bseq (as_lhs a) fs) as [f|] eqn:GF; [|apply rollback_lists; auto].
    destruct (aget bseq (as_lhs a) m) as [c|] eqn:GM; [|apply rollback_lists; auto].
    destruct (f_layers f) as [|t rest] eqn:EL; [exact R|].
    assert (HS' : forall k c', In (k, c') (saved ++ [(as_lhs a, c)]) -> fl fs k c').
    { intros k c' Hin. apply in_app_iff in Hin as [Hin|[Hin|[]]]; [eapply HS; eauto|]. injection Hin as <- <-. eapply R; eauto. }
    assert (FL : forall x, t <> TsList -> fl fs (as_lhs a) x). { intros x NL f' ls' G1 _ G2. rewrite GF in G1. injection G1 as <-. congruence. }
    destruct (tclass_eqb (tsel_class t) (lit_class (as_rhs a)) && negb (tclass_eqb (tsel_class t) TcList) && cell_init c) eqn:E1.
    { apply andb_true_iff in E1 as [E1 _]. apply andb_true_iff in E1 as [_ E2]. apply negb_true_iff in E2.
      destruct (operator farith (tsel_class t) (as_op a) c (as_rhs a)) as [ok new| |]; [|exact R|exact Logic.I].
      apply IH; [|exact HS']. apply row_lists_put; [exact R|]. apply FL. intros ->. discriminate E2. }
    destruct (tclass_eqb (tsel_class t) (lit_class (as_rhs a)) && negb (cell_init c) && _) eqn:E3.
    { apply andb_true_iff in E3 as [E3 _]. apply andb_true_iff in E3 as [E3 _]. apply tclass_eqb_eq in E3.
      apply IH; [|exact HS']. apply row_lists_put; [exact R|]. apply FL. intros ->. destruct (as_rhs a); discriminate E3. }
    destruct (tclass_eqb (tsel_class t) TcList && _) eqn:E4; [|apply rollback_lists; auto].
    destruct rest as [|t1 rest]; [exact R|].
    destruct (tclass_eqb (tsel_class t1) (lit_class (as_rhs a))) eqn:E5; [|apply rollback_lists; auto].
    destruct c as [| | | | |xs]; try exact Logic.I.
    apply IH; [|exact HS]. apply row_lists_put; [exact R|]. intros f' ls' _ _ _. eauto.
  Qed.
  Lemma update_lists fs m asg : row_lists fs m -> row_lists fs (fst (update_row farith fs m asg)).
  Proof.
    intros R. unfold update_row. pose proof (loop_lists fs asg false m [] R (fun _ _ (X : In _ []) => match X with end)) as H.
    destruct (upd_loop farith fs asg false m []); cbn [fst]; exact H || exact R.
  Qed.
  Lemma insert_shaped lay d : lay_ok lay -> conforming lay d -> forall c f v, aget bseq c (lo_fields lay) = Some f -> aget bseq c (ins_row lay d) = Some v ->
    (f_null f = true /\ v = CNull) \/ RowSpec.typed (f_layers f) v.
  Proof.
    intros LO C c f v GC GM. assert (NP : c <> lo_pk lay).
    { apply (aget_some_key _ bseq_eq) in GM. apply ins_row_cols in GM; [tauto|exact LO|exact C]. }
    destruct (ins_row_get _ _ C c f GC NP) as (v' & x & E1 & _ & A & _). rewrite E1 in GM. injection GM as <-. destruct A as [[A B]|A]; auto.
  Qed.
  Lemma typed_shape ls c : RowSpec.typed ls c -> shaped ls c.
  Proof. intros T. induction T; try (constructor; fail); [subst; apply sh_num; reflexivity|constructor; auto]. Qed.
  Lemma rows_kept lay h s : lay_ok lay -> rhist farith order (mst_new lay) h s -> Forall (fun e => dml_ok (fst e)) h ->
    m_lay s = lay /\ forall k m, rows_of s k = Some m -> row_shaped (lo_fields lay) m /\ row_lists (lo_fields lay) m.
  Proof.
    intros LO H HF. split; [destruct (table_hist farith order lay h s LO H HF) as [[IL _ _ _ _] _]; exact IL|].
    remember (mst_new lay) as s0 eqn:E0. induction H as [s0|s0 h s1 q s2 r H IH HS HU]; subst.
    - intros k m HR. discriminate HR.
    - apply Forall_app in HF as [HF HQ]. inversion HQ as [|? ? HQ1 _]; subst. cbn [fst] in HQ1. specialize (IH eq_refl HF).
      destruct (table_hist farith order lay h s1 LO H HF) as [I _].
      destruct (table_step farith order lay s1 q s2 r LO I HQ1 HS HU) as [_ T].
      pose proof (lay_layers lay LO) as LK.
      intros k m HR. rewrite T in HR. unfold tlog in HR.
      destruct q as [d|w asg|w|w cols|cols n|a b]; destruct r; try (eapply IH; eassumption); unfold tput in HR.
      all: try (destruct (asked lay w) as [p|] eqn:EA; [|eapply IH; eassumption]).
      all: try (destruct (rows_of s1 p) as [m0|] eqn:ER; [|eapply IH; eassumption]).
      all: match type of HR with (if pkey_eqb ?a ?b then _ else _) = _ => destruct (pkey_eqb a b) eqn:E end; try (eapply IH; eassumption).
      all: try discriminate HR.
      all: injection HR as <-.
      all: try (destruct (IH _ _ ER) as [X Y]; split; [apply update_shaped; [exact LK|exact X]|apply update_lists; exact Y]).
      assert (GI : ginv s1).
      { destruct I as [IL IS IF IN IR]. constructor; [congruence|exact IN|]. intros k0 i0 G0.
        destruct (IR _ _ G0) as (o & E1 & K & _). eauto. }
      destruct I as [IL IS IF IN IR].
      destruct (insert_cases farith order s1 d s2 RoOk GI IF HQ1 HS) as [(_ & C & _)|[(X & _)|(X & _)]]; try discriminate X.
      rewrite IL in C. pose proof (insert_shaped lay d LO C) as Q. split.
      + intros c f v GC GM. destruct (Q c f v GC GM) as [[_ A]|A]; [left; exact A|right; apply typed_shape; exact A].
      + intros c v GM f ls GC N L. destruct (Q c f v GC GM) as [[A _]|A]; [congruence|]. rewrite L in A. inversion A; subst; eauto.
        all: match goal with X : qsel_tsel ?q = TsList |- _ => destruct q; discriminate X | _ => idtac end.
  Qed.
End Ub.
