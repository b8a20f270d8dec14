(** Dispatch: C41 (only root runs schema statements), C42 (the current space), C61 (open connections of
    dropped users). *)
From Coq Require Import Strings.String List NArith Bool Arith Lia.
From Verif Require Import Bytes DataModel CodecModel AMap TypeModel GnsModel RowModel LexModel LexSpec ParseModel ParseSpec
  ParseProofs ParseSel ParseIns ParseProps DdlModel DdlSpec DdlAll DdlProps ExecModel.
Import ListNotations.

Definition kst (k : kstmt) : token := TKw (KStmt k).

Section Exec.
Variable uuid_text : nat -> bytes.
Variable uuid_bin : nat -> bytes.
Variable now_secs : nat -> N.
Variable order : list (bytes * field) -> list (bytes * field).
Variable hash : bytes -> N -> bytes.
Variable data : Type.
Variable dans : Type.
Variable dml : request -> ns -> data -> data * dans.
Variable inspect : session -> ns -> data -> inspect_stmt -> dans.
Notation dispatch := (dispatch uuid_text uuid_bin now_secs).
Notation query := (query uuid_text uuid_bin now_secs order hash data dans dml inspect).
Notation connection := (connection uuid_text uuid_bin now_secs order hash data dans dml inspect).
Notation use_step := (use_step uuid_text uuid_bin now_secs order hash data dans dml inspect).

(** ** C41 *)

(** the statements of administration, from any tokens after the keyword: refused, and nothing changes *)
Theorem C41_schema_needs_root c en w d k r :
  se_root (c_se c) = false -> k = KsCreate \/ k = KsAlter \/ k = KsDrop ->
  query c en w d (kst k :: r) = (c, w, d, AnErr dans DxPermission).
Proof. intros R [-> |[-> | ->]]; unfold ExecModel.query; cbn; rewrite R; reflexivity. Qed.

Lemma sysctl_stmt ts s : sysctl_of ts = POk s ->
  s = SReportStatus \/ (exists k d, s = SCreateUser k d) \/ (exists k d, s = SAlterUser k d) \/ (exists k, s = SDropUser k).
Proof. intros H. apply sysctl_iff in H. destruct H as [W _]. destruct W; eauto 6. Qed.

(** SYSCTL: an error, unless the tokens are exactly REPORT STATUS; nothing changes *)
Theorem C41_sysctl_needs_root c en w d r : se_root (c_se c) = false ->
  exists a, query c en w d (kst KsSysctl :: r) = (c, w, d, a) /\
    ((exists e, a = AnErr _ e) \/ a = AnDdl _ (OErr ErrPermission) \/
     (exists x y, r = [x; y] /\ spells (bstr "report"%string) x /\ spells (bstr "status"%string) y)).
Proof.
  intros R. unfold ExecModel.query. cbn [kst ExecModel.dispatch is_blocking]. unfold blocking. cbn [is_sysctl]. rewrite orb_true_r. cbn [negb].
  destruct r as [|a [|b r]]; [eexists; split; [reflexivity | left; eauto]|eexists; split; [reflexivity | left; eauto]|].
  destruct (sysctl_sound (a :: b :: r)) as [[s S]|[e S]]; rewrite S; cbn [of_pres]; [|eexists; split; [reflexivity | left; eauto]].
  pose proof (sysctl_stmt _ _ S) as [-> |[(k & o & ->)|[(k & o & ->)|(k & ->)]]]; cbn [exec_stmt]; rewrite ?R; cbn [negb];
    (eexists; split; [reflexivity|]); auto.
  right. right. apply sysctl_iff in S. destruct S as [W _]. inversion W; subst. eauto.
Qed.

(** any statement at all: without root rights the namespace, its log and the accounts stay as they are *)
Theorem C41_namespace_unchanged c en w d ts c' w' d' a : se_root (c_se c) = false ->
  query c en w d ts = (c', w', d', a) -> w' = w.
Proof.
  intros R. unfold ExecModel.query. destruct (dispatch _ _ ts) as [q|e| | |]; try (intros H; injection H; congruence).
  destruct q; try (destruct (dml _ _ _) as [x y]; intros H; injection H; congruence).
  - destruct s; cbn [exec_stmt]; rewrite ?R; cbn [negb]; intros H; injection H; congruence.
  - destruct (do_use _ _ _ _) as [x y]. intros H; injection H; congruence.
  - intros H; injection H; congruence.
Qed.

(** with root rights they do run *)
Theorem C41_root_runs c en w d nx k t p : se_root (c_se c) = true -> with_props t p ->
  query c en w d (kst KsCreate :: kmis KmSpace :: nx_toks nx ++ TId k :: t) =
  let '(w', o) := exec_stmt order hash (c_se c) en w (SCreateSpace k p nx) in (c, w', d, AnDdl _ o).
Proof.
  intros R W. unfold ExecModel.query. cbn [kst ExecModel.dispatch is_blocking]. rewrite R.
  assert (E : create_space_of (nx_toks nx ++ TId k :: t) = POk (SCreateSpace k p nx)) by (apply create_space_iff; constructor; exact W).
  unfold blocking. cbn [orb negb]. destruct nx; cbn [nx_toks app] in *; unfold kmis in *; cbn [is_misc is_ident orb andb]; rewrite E; reflexivity.
Qed.

(** ** C42 *)

(** what a statement does to the current space, from what is written *)
Inductive selects (n : ns) (ts : list token) (cur : option bytes) : option bytes -> Prop :=
| sel_space k : ts = [kst KsUse; TId k] -> has_space k n = true -> selects n ts cur (Some k)
| sel_null : ts = [kst KsUse; kmis KmNull] -> selects n ts cur None
| sel_gone c k : ts = [kst KsUse; TSym SDollar; c] -> spells (bstr "current"%string) c -> cur = Some k -> has_space k n = false ->
    selects n ts cur None
| sel_none : (forall k, ts = [kst KsUse; TId k] -> has_space k n = false) ->
    ts <> [kst KsUse; kmis KmNull] ->
    (forall c k, ts = [kst KsUse; TSym SDollar; c] -> spells (bstr "current"%string) c -> cur = Some k -> has_space k n = true) ->
    selects n ts cur cur.

Lemma use_stmt_toks ts u : use_of ts = POk u ->
  match u with UseSpace k => ts = [TId k] | UseNull => ts = [kmis KmNull]
  | UseCurrent => exists c, ts = [TSym SDollar; c] /\ spells (bstr "current"%string) c end.
Proof. intros H. apply use_iff in H. destruct u; inversion H; subst; eauto. Qed.
Lemma use_space_mk k : use_of [TId k] = POk (UseSpace k).
Proof. apply use_iff. constructor. Qed.
Lemma use_null_mk : use_of [kmis KmNull] = POk UseNull.
Proof. reflexivity. Qed.
Lemma use_cur_mk c : spells (bstr "current"%string) c -> use_of [TSym SDollar; c] = POk UseCurrent.
Proof. intros S. apply use_iff. constructor. exact S. Qed.

Lemma query_selects c en w d ts : selects (w_ns w) ts (c_cs c) (c_cs (use_step c (en, w, d, ts))) /\ c_se (use_step c (en, w, d, ts)) = c_se c.
Proof.
  unfold ExecModel.use_step.
  assert (OTHER : (forall r u, ts = kst KsUse :: r -> use_of r = POk u -> False) -> selects (w_ns w) ts (c_cs c) (c_cs c)).
  { intros N. apply sel_none.
    - intros k E. destruct (N [TId k] (UseSpace k) E (use_space_mk k)).
    - intros E. destruct (N _ _ E use_null_mk).
    - intros x k E S _. destruct (N _ _ E (use_cur_mk x S)). }
  unfold ExecModel.query. destruct (dispatch (se_root (c_se c)) (c_cs c) ts) as [q|e| | |] eqn:D;
    try (split; [apply OTHER | reflexivity]; intros r u -> U; cbn [kst ExecModel.dispatch is_blocking nonblocking] in D; rewrite U in D; discriminate D).
  destruct q as [s|u|i|i|s|s|u|x];
    try (destruct (dml _ _ _) as [d' a]; split; [apply OTHER | reflexivity]; intros r u0 -> U; cbn [kst ExecModel.dispatch is_blocking nonblocking] in D; rewrite U in D; discriminate D).
  - destruct (exec_stmt _ _ _ _ _ _) as [w' o]. split; [apply OTHER | reflexivity]. intros r u -> U.
    cbn [kst ExecModel.dispatch is_blocking nonblocking] in D. rewrite U in D. discriminate D.
  - assert (E : exists r, ts = kst KsUse :: r /\ use_of r = POk u).
    { clear OTHER. destruct ts as [|[|[k|]| |] r]; try discriminate D. cbn [ExecModel.dispatch] in D. destruct (is_blocking k) eqn:B.
      - exfalso. unfold blocking in D. destruct (negb _); [discriminate D|]. destruct r as [|a [|b r]]; try discriminate D.
        destruct k; try discriminate B; repeat (match type of D with context [if ?x then _ else _] => destruct x end);
          try discriminate D; match type of D with of_pres _ ?p = _ => destruct p; discriminate D end.
      - destruct k; try discriminate B; cbn [nonblocking] in D; try discriminate D;
          try (match type of D with of_pres _ ?p = _ => destruct p eqn:P; try discriminate D end).
        + cbn in D. injection D as ->. exists r. auto.
        + destruct r as [|[|[|[]]| |] r]; match type of D with of_pres _ ?p = _ => destruct p; discriminate D end. }
    destruct E as (r & -> & U). apply use_stmt_toks in U. destruct u as [k| |]; cbn [do_use].
    + subst r. destruct (has_space k (w_ns w)) eqn:H; (split; [|reflexivity]); cbn [c_cs].
      * apply sel_space; auto.
      * apply sel_none; [|discriminate|discriminate]. intros k0 E. injection E as <-. exact H.
    + destruct U as (x & -> & S). destruct (c_cs c) as [k|] eqn:C.
      * destruct (has_space k (w_ns w)) eqn:H; cbn [c_cs]; (split; [|reflexivity]).
        -- rewrite C. apply sel_none; [discriminate|discriminate|]. intros c0 k0 _ _ E. injection E as <-. exact H.
        -- eapply sel_gone; eauto.
      * cbn [c_cs]. split; [|reflexivity]. rewrite C. apply sel_none; discriminate.
    + subst r. cbn [c_cs]. split; [|reflexivity]. apply sel_null. reflexivity.
  - split; [apply OTHER | reflexivity]. intros r u -> U.
    cbn [kst ExecModel.dispatch is_blocking nonblocking] in D. rewrite U in D. discriminate D.
Qed.

(** what the current space should be after a history: the last USE that succeeded decides *)
Inductive default_space : list (env * world * data * list token) -> option bytes -> Prop :=
| df_new : default_space [] None
| df_step l en w d ts cur cur' : default_space l cur -> selects (w_ns w) ts cur cur' ->
    default_space (l ++ [(en, w, d, ts)]) cur'.

(** C42. It is, for every history of a connection and whatever happens elsewhere in between. *)
Theorem C42_default_space se l : default_space l (c_cs (connection se l)).
Proof.
  enough (X : default_space l (c_cs (connection se l)) /\ c_se (connection se l) = se) by tauto.
  induction l as [|q l IH] using rev_ind; [split; [constructor | reflexivity]|].
  unfold ExecModel.connection. rewrite fold_left_app. cbn [fold_left]. fold (connection se l). destruct IH as [IH E].
  destruct q as [[[en w] d] ts]. destruct (query_selects (connection se l) en w d ts) as [S E2]. split; [|congruence].
  econstructor; eassumption.
Qed.
(** the specification determines it *)
Theorem C42_default_space_unique l a b : default_space l a -> default_space l b -> a = b.
Proof.
  assert (F : forall n ts cur x y, selects n ts cur x -> selects n ts cur y -> x = y).
  { intros n ts cur x y A B.
    destruct A as [k E H|E|c k E S C H|N1 N2 N3]; destruct B as [k' E' H'|E'|c' k' E' S' C' H'|M1 M2 M3]; unfold kst, kmis in *; try congruence.
    - rewrite (M1 k E) in H. discriminate H.
    - rewrite (M3 c k E S C) in H. discriminate H.
    - rewrite (N1 k' E') in H'. discriminate H'.
    - rewrite (N3 c' k' E' S' C') in H'. discriminate H'. }
  intros A. revert b. induction A as [|l en w d ts cur cur' A IH S]; intros b B.
  - inversion B as [|l0 en0 w0 d0 ts0 c0 c1 B0 S0 E1 E2]; subst; [reflexivity|]. destruct l0; discriminate E1.
  - inversion B as [E1|l0 en0 w0 d0 ts0 c0 c1 B0 S0 E1 E2]; subst; [destruct l; discriminate E1|].
    apply app_inj_tail in E1. destruct E1 as [-> E1]. injection E1 as -> -> -> ->. specialize (IH _ B0). subst c0. eapply F; eassumption.
Qed.

(** the model a DML or INSPECT request is about *)
Definition subject (q : request) : option entity :=
  match q with
  | RqInspect (InModel e) => Some e
  | RqInsert i => Some (in_entity i) | RqSelect s => Some (ParseModel.se_entity s) | RqSelectAll s => Some (sa_entity s)
  | RqUpdate u => Some (up_entity u) | RqDelete d => Some (de_entity d)
  | _ => None
  end.

(** C42. The model is written in the statement: [space.model], or [model] alone in the current space. *)
Theorem C42_meaning root cs ts q e : dispatch root cs ts = DReq q -> subject q = Some e ->
  exists pre en post, ts = pre ++ en ++ post /\ names cs en e.
Proof.
  intros D S. destruct ts as [|[|[k|]| |] r]; try discriminate D. cbn [ExecModel.dispatch] in D.
  enough (X : exists pre en post, r = pre ++ en ++ post /\ names cs en e).
  { destruct X as (pre & en & post & -> & N). exists (TKw (KStmt k) :: pre), en, post. auto. }
  destruct (is_blocking k) eqn:B.
  { exfalso. unfold blocking in D. destruct (negb _); [discriminate D|]. destruct r as [|a [|b r]]; try discriminate D.
    destruct k; try discriminate B; repeat (match type of D with context [if ?x then _ else _] => destruct x end);
          try discriminate D; match type of D with of_pres _ ?p = _ => destruct p; try discriminate D end; injection D as <-; discriminate S. }
  destruct k; try discriminate B; cbn [nonblocking] in D; try discriminate D.
  - destruct (use_of r); try discriminate D. injection D as <-. discriminate S.
  - destruct (inspect_of cs r) as [i| | | |] eqn:P; try discriminate D. injection D as <-. apply inspect_iff in P.
    destruct i; try discriminate S. injection S as ->. inversion P as [| |en e0 N]; subst. exists [kmis KmModel], en, []. rewrite app_nil_r. auto.
  - destruct (insert_of _ _ _ cs r) as [i| | | |] eqn:P; try discriminate D. injection D as <-. destruct i as [e0 d0]. injection S as <-.
    apply insert_iff in P. destruct P as [_ [P|(_ & u & -> & P)]]; inversion P as [en e1 d1 t N W E1]; subst.
    + exists [kmis KmInto], en, t. auto.
    + assert (X : exists t', u = kmis KmInto :: en ++ t').
      { clear -E1 W. destruct (exists_last (l := t)) as (t' & z & ->).
        - intros ->. inversion W; subst.
        - rewrite app_comm_cons, app_assoc in E1. apply app_inj_tail in E1. destruct E1 as [<- _]. exists t'. reflexivity. }
      destruct X as (t' & ->). exists [kmis KmInto], en, (t' ++ [TSym SComma]). split; [|exact N]. cbn. rewrite <- app_assoc. reflexivity.
  - assert (SEL : forall r, of_pres RqSelect (select_of cs r) = DReq q -> exists pre en post, r = pre ++ en ++ post /\ names cs en e).
    { intros r0 D0. destruct (select_of cs r0) as [i| | | |] eqn:P; try discriminate D0. injection D0 as <-. destruct i as [e0 f0 w0]. injection S as <-.
      apply select_iff in P. destruct P as (F & en & _ & _ & N & [(_ & _ & ->)|(_ & k & _ & ->)]); exists (F ++ [kmis KmFrom]), en.
      - exists []. rewrite <- app_assoc, app_nil_r. auto.
      - exists (kmis KmWhere :: where_toks w0 ++ repeat (kmis KmAnd) k). rewrite <- app_assoc. auto. }
    destruct r as [|t r]; [exact (SEL _ D)|].
    assert (C : t = kmis KmAll \/ of_pres RqSelect (select_of cs (t :: r)) = DReq q).
    { destruct t as [|[|[]]| |]; auto. }
    destruct C as [-> |C]; [|exact (SEL _ C)]. cbn [kmis] in D.
    destruct (select_all_of cs r) as [i| | | |] eqn:P; try discriminate D. injection D as <-. destruct i as [e0 f0 n0]. injection S as <-.
    apply select_all_iff in P. destruct P as (F & en & _ & _ & N & ->). exists (kmis KmAll :: F ++ [kmis KmFrom]), en, [kmis KmLimit; TLit (LUInt n0)].
    split; [|exact N]. cbn. rewrite <- app_assoc. reflexivity.
  - destruct (update_of cs r) as [i| | | |] eqn:P; try discriminate D. injection D as <-. destruct i as [e0 l0 w0]. injection S as <-.
    apply C46_update in P. destruct P as (u & k & -> & _ & P). inversion P as [en e1 l1 w1 N _ _ E1]; subst.
    exists [], en. rewrite <- app_assoc. cbn [app]. eexists. split; [reflexivity | exact N].
  - destruct (delete_of cs r) as [i| | | |] eqn:P; try discriminate D. injection D as <-. destruct i as [e0 w0]. injection S as <-.
    apply C46_delete in P. destruct P as (u & k & -> & _ & P). inversion P as [en e1 w1 N _ E1]; subst.
    exists [kmis KmFrom], en. cbn [app]. rewrite <- app_assoc. eexists. split; [reflexivity | exact N].
Qed.

(** C42. So without a current space a statement without a qualified name reaches no model. *)
Theorem C42_unqualified_needs_space root ts q : dispatch root None ts = DReq q -> ~ In (TSym SPeriod) ts -> subject q = None.
Proof.
  intros D N. destruct (subject q) as [e|] eqn:S; [|reflexivity]. exfalso.
  destruct (C42_meaning _ _ _ _ _ D S) as (pre & en & post & -> & NM). apply N. apply in_or_app. right. apply in_or_app. left.
  inversion NM; subst; [cbn; auto | discriminate].
Qed.

(** C42. A statement that is understood without a current space means the same in every current space. *)
Theorem C42_qualified_unaffected root cs ts q : dispatch root None ts = DReq q -> dispatch root cs ts = DReq q.
Proof.
  intros D. destruct ts as [|[|[k|]| |] r]; try discriminate D. cbn [ExecModel.dispatch] in *.
  destruct (is_blocking k) eqn:B; [exact D|].
  assert (NM : forall en e, names None en e -> names cs en e) by (intros en e N; inversion N; subst; [constructor | discriminate]).
  destruct k; try discriminate B; cbn [nonblocking] in *; try discriminate D.
  - exact D.
  - destruct (inspect_of None r) as [i| | | |] eqn:P; try discriminate D. apply inspect_iff in P.
    assert (P2 : wf_inspect cs r (insp_req_of i)) by (inversion P; subst; constructor; auto).
    apply inspect_iff in P2. rewrite P2. exact D.
  - destruct (insert_of _ _ _ None r) as [[e0 d0]| | | |] eqn:P; try discriminate D. apply insert_iff in P.
    assert (W : forall t, wf_insert uuid_text uuid_bin now_secs None t e0 d0 -> wf_insert uuid_text uuid_bin now_secs cs t e0 d0)
      by (intros t X; inversion X; subst; constructor; auto).
    assert (P2 : insert_of uuid_text uuid_bin now_secs cs r = POk (mk_ins e0 d0)).
    { apply insert_iff. destruct P as [L [P|(NE & u & E & P)]]; (split; [exact L|]); [left; auto | right; split; [exact NE|]; exists u; auto]. }
    rewrite P2. exact D.
  - assert (SEL : forall r, of_pres RqSelect (select_of None r) = DReq q -> of_pres RqSelect (select_of cs r) = DReq q).
    { intros r0 D0. destruct (select_of None r0) as [[e0 f0 w0]| | | |] eqn:P; try discriminate D0. apply select_iff in P.
      assert (P2 : select_of cs r0 = POk (mk_sel e0 f0 w0)).
      { apply select_iff. destruct P as (F & en & LF & FO & N & P). exists F, en. auto. }
      rewrite P2. exact D0. }
    destruct r as [|t r]; [exact (SEL _ D)|].
    assert (C : t = kmis KmAll \/ forall c, match t :: r with TKw (KMisc KmAll) :: r' => of_pres RqSelectAll (select_all_of c r') | _ => of_pres RqSelect (select_of c (t :: r)) end
        = of_pres RqSelect (select_of c (t :: r))).
    { destruct t as [|[|[]]| |]; auto. }
    destruct C as [-> |C]; [|rewrite C in *; exact (SEL _ D)]. cbn [kmis] in *.
    destruct (select_all_of None r) as [[e0 f0 n0]| | | |] eqn:P; try discriminate D. apply select_all_iff in P.
    assert (P2 : select_all_of cs r = POk (mk_sela e0 f0 n0)).
    { apply select_all_iff. destruct P as (F & en & LF & FO & N & ->). exists F, en. auto. }
    rewrite P2. exact D.
  - destruct (update_of None r) as [[e0 l0 w0]| | | |] eqn:P; try discriminate D. apply C46_update in P.
    assert (P2 : update_of cs r = POk (mk_upd e0 l0 w0)).
    { apply C46_update. destruct P as (u & k & -> & K & P). exists u, k. repeat split; auto. inversion P; subst. constructor; auto. }
    rewrite P2. exact D.
  - destruct (delete_of None r) as [[e0 w0]| | | |] eqn:P; try discriminate D. apply C46_delete in P.
    assert (P2 : delete_of cs r = POk (mk_del e0 w0)).
    { apply C46_delete. destruct P as (u & k & -> & K & P). exists u, k. repeat split; auto. inversion P; subst. constructor; auto. }
    rewrite P2. exact D.
Qed.

(** C42. Statements of administration ignore the current space. *)
Theorem C42_schema_ignores_space root cs1 cs2 k r : is_blocking k = true ->
  dispatch root cs1 (kst k :: r) = dispatch root cs2 (kst k :: r).
Proof. intros B. cbn. rewrite B. reflexivity. Qed.

(** C42. DELETE, UPDATE, INSERT, SELECT with WHERE, SELECT ALL and INSPECT MODEL do take the model of
    the current space. *)
Theorem C42_current_space_partial root a b :
  (forall w, where_ok w ->
     dispatch root (Some a) (kst KsDelete :: kmis KmFrom :: TId b :: kmis KmWhere :: where_toks w) = DReq (RqDelete (mk_del (a, b) w))) /\
  (forall l w, l <> nil -> where_ok w ->
     dispatch root (Some a) (kst KsUpdate :: TId b :: kmis KmSet :: set_toks l ++ kmis KmWhere :: where_toks w) = DReq (RqUpdate (mk_upd (a, b) l w))) /\
  (forall l w, fields_ok (Some l) -> where_ok w ->
     dispatch root (Some a) (kst KsSelect :: field_toks (Some l) ++ kmis KmFrom :: TId b :: kmis KmWhere :: where_toks w) = DReq (RqSelect (mk_sel (a, b) (Some l) w))) /\
  (forall f n, fields_ok f ->
     dispatch root (Some a) (kst KsSelect :: kmis KmAll :: field_toks f ++ kmis KmFrom :: TId b :: [kmis KmLimit; TLit (LUInt n)]) = DReq (RqSelectAll (mk_sela (a, b) f n))) /\
  dispatch root (Some a) [kst KsInspect; kmis KmModel; TId b] = DReq (RqInspect (InModel (a, b))).
Proof.
  assert (N : names (Some a) [TId b] (a, b)) by (constructor; reflexivity).
  repeat split.
  - intros w W. cbn [kst ExecModel.dispatch is_blocking nonblocking].
    rewrite (proj1 C46_written_partial (Some a) _ (a, b) w); [reflexivity|]. apply (wfd (Some a) [TId b] (a, b) w N W).
  - intros l w L W. cbn [kst ExecModel.dispatch is_blocking nonblocking].
    rewrite (proj1 (proj2 C46_written_partial) (Some a) _ (a, b) l w); [reflexivity|]. apply (wfu (Some a) [TId b] (a, b) l w N L W).
  - intros l w F W. cbn [kst ExecModel.dispatch is_blocking nonblocking].
    assert (H : select_of (Some a) (field_toks (Some l) ++ kmis KmFrom :: TId b :: kmis KmWhere :: where_toks w) = POk (mk_sel (a, b) (Some l) w)).
    { apply (proj1 (proj2 (proj2 C46_written_partial))); [apply (wfs_where (Some a) [TId b] (a, b) (Some l) w N F W)|]. destruct W. assumption. }
    destruct l as [|x l]; [exfalso; apply F; reflexivity|].
    assert (T : exists t', field_toks (Some (x :: l)) = TId x :: t') by (unfold field_toks; destruct l; cbn; eauto).
    destruct T as (t' & T). rewrite T in *. cbn [app] in *. rewrite H. reflexivity.
  - intros f n F. cbn [kst ExecModel.dispatch is_blocking nonblocking kmis].
    rewrite (proj1 (proj2 (proj2 (proj2 C46_written_partial))) (Some a) _ (a, b) f n); [reflexivity|]. apply (wfsa (Some a) [TId b] (a, b) f n N F).
Qed.

(** C42 is false for SELECT without WHERE: in every current space, and without one, the connection's
    task panics. *)
Theorem C42_select_dies c en w d l b : fields_ok (Some l) ->
  query c en w d (kst KsSelect :: field_toks (Some l) ++ [kmis KmFrom; TId b]) = (c, w, d, AnDead _).
Proof.
  intros F. unfold ExecModel.query. cbn [kst ExecModel.dispatch is_blocking nonblocking].
  pose proof (C46_select_current_space (c_cs c) (Some l) b F) as H.
  destruct l as [|x l]; [exfalso; apply F; reflexivity|].
  assert (T : exists t', field_toks (Some (x :: l)) = TId x :: t') by (unfold field_toks; destruct l; cbn; eauto).
  destruct T as (t' & T). rewrite T in *. cbn [app] in *. rewrite H. reflexivity.
Qed.

(** ** C61: an open connection does not look at the accounts again *)

(** C61. A DML, USE or INSPECT statement, and for a connection without root rights any statement, goes
    the same way whatever accounts exist: in particular after the connection's own user is dropped or
    given another password. (DML and INSPECT of a model or space are assumed not to read the accounts.) *)
Definition with_users (u : list (bytes * bytes)) (w : world) : world := mk_world (set_users u (w_ns w)) (w_log w) (w_iffy w).
Theorem C61_accounts_not_consulted c en w d ts u :
  (forall q d, dml q (set_users u (w_ns w)) d = dml q (w_ns w) d) ->
  (forall i, inspect (c_se c) (set_users u (w_ns w)) d i = inspect (c_se c) (w_ns w) d i) ->
  se_root (c_se c) = false ->
  query c en (with_users u w) d ts = let '(c', w', d', a) := query c en w d ts in (c', with_users u w', d', a).
Proof.
  intros HD HI R. unfold ExecModel.query. destruct (dispatch (se_root (c_se c)) (c_cs c) ts) as [q|e| | |]; try reflexivity.
  destruct q as [s|x|i|i|s|s|x|x]; cbn [w_ns with_users]; rewrite ?HD, ?HI; try (destruct (dml _ _ _) as [d' a]; reflexivity); [| |reflexivity].
  - destruct s; cbn [exec_stmt]; rewrite ?R; cbn [negb]; reflexivity.
  - destruct x as [k| |]; cbn [do_use]; unfold has_space; cbn [set_users n_spaces].
    + destruct (aget bseq k (n_spaces (w_ns w))); reflexivity.
    + destruct (c_cs c) as [k|]; [|reflexivity]. destruct (aget bseq k (n_spaces (w_ns w))); reflexivity.
    + reflexivity.
Qed.
End Exec.

Print Assumptions C41_schema_needs_root.
Print Assumptions C41_sysctl_needs_root.
Print Assumptions C41_namespace_unchanged.
Print Assumptions C41_root_runs.
Print Assumptions C42_default_space.
Print Assumptions C42_default_space_unique.
Print Assumptions C42_meaning.
Print Assumptions C42_unqualified_needs_space.
Print Assumptions C42_qualified_unaffected.
Print Assumptions C42_schema_ignores_space.
Print Assumptions C42_current_space_partial.
Print Assumptions C42_select_dies.
Print Assumptions C61_accounts_not_consulted.

(** ** Concrete cases *)
Definition xid (s : string) : token := TId (bstr s).
Definition x_zt (_ : nat) : bytes := [].
Definition x_zn (_ : nat) : N := 0%N.
(** a table of row counts stands for the rows: DELETE takes one, all else reads *)
Definition x_dml (q : request) (n : ns) (d : nat) : nat * nat :=
  match q with RqDelete _ => (pred d, d) | _ => (d, d) end.
Definition x_inspect (se : session) (n : ns) (d : nat) (i : inspect_stmt) : nat := length (n_models n).
Definition x_query := query x_zt x_zt x_zn (fun l => l) (fun p _ => p) nat nat x_dml x_inspect.
Definition x_connection := connection x_zt x_zt x_zn (fun l => l) (fun p _ => p) nat nat x_dml x_inspect.
Definition x_env : env := mk_env 7 true true 0 0.
Definition x_ns : ns := mk_ns [(bstr "s", mk_mspace 1 [] []); (bstr "t", mk_mspace 2 [] [])] []
  [(ROOT, bstr "rootpw"); (bstr "ana", bstr "pw")].
Definition x_w : world := mk_world x_ns [] false.
Definition x_gone : world := mk_world (mk_ns [(bstr "t", mk_mspace 2 [] [])] [] []) [] false.
Definition x_root : conn := mk_conn (mk_session ROOT true) None.
Definition x_ana : conn := mk_conn (mk_session (bstr "ana") false) None.
Definition x_delete : list token :=
  [kst KsDelete; kmis KmFrom; xid "s"; TSym SPeriod; xid "m"; kmis KmWhere; xid "k"; TSym SAssign; TLit (LUInt 1)].

(** C61 is false: root drops ana, and the account is gone; ana's open connection deletes a row as before *)
Theorem C61_drop_ends_access_refuted : exists c w d w' d',
  x_query x_root x_env w d [kst KsSysctl; kst KsDrop; xid "user"; xid "ana"] = (x_root, w', d, AnDdl _ OEmpty) /\
  aget bseq (bstr "ana") (n_users (w_ns w)) <> None /\ aget bseq (bstr "ana") (n_users (w_ns w')) = None /\
  se_user (c_se c) = bstr "ana" /\
  x_query c x_env w' d x_delete = (c, w', d', AnData _ d) /\ d' <> d.
Proof. exists x_ana, x_w, 3%nat. eexists. eexists. split; [vm_compute; reflexivity|]. vm_compute. repeat split; discriminate. Qed.
Print Assumptions C61_drop_ends_access_refuted.

(** C42 is false: after USE s, SELECT a FROM m ends the connection instead of reading s.m *)
Theorem C42_select_refuted : exists l,
  c_cs (x_connection (c_se x_ana) l) = Some (bstr "s") /\
  x_query (x_connection (c_se x_ana) l) x_env x_w 3 [kst KsSelect; xid "a"; kmis KmFrom; xid "m"] =
    (x_connection (c_se x_ana) l, x_w, 3%nat, AnDead _).
Proof. exists [(x_env, x_w, 3%nat, [kst KsUse; xid "s"])]. vm_compute. auto. Qed.
Print Assumptions C42_select_refuted.

Example C41_case : x_query x_ana x_env x_w 3 [kst KsDrop; kmis KmSpace; xid "s"] = (x_ana, x_w, 3%nat, AnErr _ DxPermission) /\
  x_query x_ana x_env x_w 3 [kst KsSysctl; kst KsDrop; xid "user"; xid "ana"] = (x_ana, x_w, 3%nat, AnDdl _ (OErr ErrPermission)) /\
  x_query x_ana x_env x_w 3 [kst KsSysctl; xid "REPORT"; xid "status"] = (x_ana, x_w, 3%nat, AnDdl _ OEmpty).
Proof. vm_compute. auto. Qed.
Example C41_root_case : exists w' , w' <> x_w /\
  x_query x_root x_env x_w 3 (kst KsCreate :: kmis KmSpace :: nx_toks true ++ [xid "u"]) = (x_root, w', 3%nat, AnDdl _ (OBool true)).
Proof. eexists. split; [|vm_compute; reflexivity]. vm_compute. discriminate. Qed.

(** USE s; a failed USE; another statement; s dropped elsewhere and USE $current; USE t *)
Example C42_history :
  map (fun n => c_cs (x_connection (c_se x_ana) (firstn n
    [(x_env, x_w, 3%nat, [kst KsUse; xid "s"]); (x_env, x_w, 3%nat, [kst KsUse; xid "nope"]);
     (x_env, x_w, 3%nat, x_delete); (x_env, x_w, 2%nat, [kst KsUse; TSym SDollar; xid "Current"]);
     (x_env, x_gone, 2%nat, [kst KsUse; TSym SDollar; xid "Current"]);
     (x_env, x_gone, 2%nat, [kst KsUse; xid "t"]); (x_env, x_gone, 2%nat, [kst KsUse; kmis KmNull])]))) [0; 1; 2; 3; 4; 5; 6; 7]
  = [None; Some (bstr "s"); Some (bstr "s"); Some (bstr "s"); Some (bstr "s"); None; Some (bstr "t"); None].
Proof. vm_compute. reflexivity. Qed.
Example C42_unqualified_case :
  dispatch x_zt x_zt x_zn false None [kst KsDelete; kmis KmFrom; xid "m"; kmis KmWhere; xid "k"; TSym SAssign; TLit (LUInt 1)] = DErr (DxParse ESyntax) /\
  dispatch x_zt x_zt x_zn false (Some (bstr "s")) [kst KsDelete; kmis KmFrom; xid "m"; kmis KmWhere; xid "k"; TSym SAssign; TLit (LUInt 1)] =
  dispatch x_zt x_zt x_zn false (Some (bstr "t")) x_delete.
Proof. vm_compute. auto. Qed.
