(** The row of an acknowledged INSERT over a history of bytes (C111). *)
From Coq Require Import Strings.String List NArith Bool Arith Lia Permutation.
From Verif Require Import Bytes AMap DataModel CodecModel NumModel NetModel NetProps GnsModel GnsProofs GnsHist RowModel RowSpec RowProofs RowLemmas RowUpd RowTable LexModel LexSpec
  ParseModel ParseSpec ParseSel DdlModel DdlSpec DdlProofs DdlAll ExecModel InspectModel DictProofs BatchModel BatchProofs BatchTable BatchProps UpgradeModel
  WholeModel WholeSpec WholeProofs WholeInv WholeDdl WholeFrame WholeHist WholeProps WireModel WireSpec WireProofs WirePerform WireLogin.
Import ListNotations.
Local Open Scope nat_scope.

(** ** What the grammar gives *)

Definition lawful (o : gop) : Prop :=
  match o with
  | GDml _ _ (RInsert d) => data_ok d
  | GDdl _ _ s => stmt_nd s
  | _ => True
  end.

Lemma lit_cell_no_null l : no_null (lit_cell l) = true.
Proof. destruct l; reflexivity. Qed.
Section Vals.
Variables (ut ub : nat -> bytes) (nw : nat -> N).
Scheme lval_m := Minimality for ParseSpec.lval Sort Prop
  with lvals_m := Minimality for ParseSpec.lvals Sort Prop.
Lemma lval_no_null t c r : ParseSpec.lval ut ub nw t c r -> no_null c = true.
Proof.
  apply (lval_m ut ub nw (fun t c r => no_null c = true) (fun t l r => forallb no_null l = true)); intros; cbn; auto.
  - apply lit_cell_no_null.
  - match goal with F : fnval _ _ _ _ _ _ |- _ => destruct F; reflexivity end.
  - rewrite H0. reflexivity.
  - rewrite H0, H2. reflexivity.
Qed.
Lemma rval_ok t c r : ParseSpec.rval ut ub nw t c r -> arg_ok c.
Proof. intros [r'|t' c' r' H]; [left; reflexivity|right]. eapply lval_no_null. exact H. Qed.
Lemma wf_data_ok t d : ParseSpec.wf_data ut ub nw t d -> data_ok d.
Proof.
  intros [|t' l H| |t' l H ND]; cbn [data_ok].
  - constructor.
  - induction H; constructor; eauto using rval_ok.
  - split; constructor.
  - split; [exact ND|]. clear ND. induction H; constructor; cbn [snd]; eauto using rval_ok.
Qed.
End Vals.

Lemma dict_text_nd :
  (forall t x r, dent t x r -> entry_nd (snd x)) /\
  (forall t d r, dbody t d r -> Forall (fun kv : bytes * dentry => entry_nd (snd kv)) d) /\
  (forall t d r, dtail t d r -> Forall (fun kv : bytes * dentry => entry_nd (snd kv)) d).
Proof.
  apply (dict_mut (fun t x r => entry_nd (snd x)) (fun t d r => Forall (fun kv : bytes * dentry => entry_nd (snd kv)) d) (fun t d r => Forall (fun kv : bytes * dentry => entry_nd (snd kv)) d));
    intros; cbn [snd]; try constructor; auto.
Qed.

Lemma said_data gn cs ts id st i : data_stmt gn cs ts id st -> lawful (GDml i id st).
Proof.
  intros D. destruct D as [r e d L W|u e d L N1 N2 W|r k e l w K W|r k e w K W|f F en e LF FO N L|f F en e w k LF FO N WO K|f F en e n LF FO N]; cbn [lawful]; auto.
  - destruct W as [en e d t N W]. eapply wf_data_ok. exact W.
  - inversion W; subst. eapply wf_data_ok. eassumption.
Qed.
Lemma said_schema ts s i en : schema_stmt ts s -> lawful (GDdl i en s).
Proof.
  intros D. cbn [lawful]. destruct D as [r s W|r s L W|r s W|r s W|r s W|r s W|r s W L]; destruct W; cbn [stmt_nd]; auto.
  - inversion H; subst; [constructor; constructor|]. constructor; [assumption|]. eapply (proj1 (proj2 dict_text_nd)). eassumption.
  - constructor; [assumption|]. eapply (proj1 (proj2 dict_text_nd)). eassumption.
Qed.

Section Back.
Variable farith : aop -> N -> N -> N.
Variable order : fieldmap -> fieldmap.
Variable hash : bytes -> N -> bytes.
Variable verify : bytes -> bytes -> bool.
Variable u8 : bytes -> bool.
Variable fl : bytes -> option N.
Variable ftoa : N -> bytes.
Hypothesis order_perm : forall l, Permutation (order l) l.
Notation gstep := (gstep farith order hash verify).
Notation perform := (perform farith order hash verify u8 fl ftoa).
Notation wstep := (wstep farith order hash verify u8 fl ftoa).
Notation wruns := (wruns farith order hash verify u8 fl ftoa).
Notation whist := (whist farith order hash verify u8 fl ftoa).
Notation ghist := (ghist farith order hash verify).

Lemma perform_lawful g i cs en gn q p : match perform g i cs en gn q p with
  | PdOff | PdUb => True
  | PdDead _ d | PdSay _ _ _ d => match d with Some (o, _) => lawful o | None => True end
  end.
Proof using.
  unfold WireModel.perform. destruct (nth_error _ i) as [se|]; [|exact Logic.I]. destruct (lex u8 fl q p) as [ts|e|]; try exact Logic.I.
  destruct (dispatch _ _ _ _ _ _) as [r|e| | |] eqn:DI; try exact Logic.I.
  assert (D : forall r0, r0 = r -> match (match dml_of r0 with
      | None => PdOff
      | Some (id, st) => match gstep g (GDml i id st) with
          | Some (g', GoStmt RoUb) => PdUb
          | Some (g', GoStmt o) => match dml_resp ftoa g id st o with Some r => PdSay g' cs r (Some (GDml i id st, GoStmt o)) | None => PdDead g' (Some (GDml i id st, GoStmt o)) end
          | Some (g', GoNoModel) => PdSay g' cs (RErr 100) (Some (GDml i id st, GoNoModel))
          | _ => PdOff end end) with
     | PdOff | PdUb => True
     | PdDead _ d | PdSay _ _ _ d => match d with Some (o, _) => lawful o | None => True end end).
  { intros r0 ->. destruct (dml_of r) as [[id st]|] eqn:DM; [|exact Logic.I].
    assert (LW : lawful (GDml i id st)) by (eapply said_data; eapply dispatch_data; eassumption).
    destruct (gstep g (GDml i id st)) as [[g' [y|y|y| |y| | |]]|] eqn:ST; try exact Logic.I; [|exact LW].
    destruct y; try exact Logic.I; try destruct (dml_resp _ _ _ _ _); exact LW. }
  destruct r as [s|u|n|n|n|n|n|n]; try (apply (D _ eq_refl)); try exact Logic.I.
  - assert (LW : lawful (GDdl i en s)) by (eapply said_schema; eapply dispatch_schema; eassumption).
    destruct (gstep g (GDdl i en s)) as [[g' [y|y|y| |y| | |]]|] eqn:ST; try exact Logic.I. destruct (ddl_resp y); exact LW.
  - destruct (do_use unit (mk_conn se cs) _ u) as [c a]. exact Logic.I.
Qed.

Lemma wstep_lawful x e x' b d : wstep x e = Some (x', (b, d)) -> match d with Some (o, _) => lawful o | None => True end.
Proof using.
  intros ST. destruct e as [|j en gn ch|o]; cbn [WireModel.wstep] in ST.
  - injection ST as <- <- <-. exact Logic.I.
  - destruct (nth_error (x_co x) j) as [[c0|i0 cs0 c0|]|] eqn:GJ; try discriminate ST.
    + unfold read_hello in ST. destruct (hs_read c0 ch) as [c'|u p un|er| | |] eqn:HR; try discriminate ST; try (injection ST as <- <- <-; exact Logic.I).
      destruct (u8 u); [|injection ST as <- <- <-; exact Logic.I]. destruct (gstep (x_g x) (GLogin u p)) as [[g' r]|] eqn:GS; [|discriminate ST].
      destruct r as [[[]| |]|y|y| |y| | |]; injection ST as <- <- <-; exact Logic.I.
    + unfold read_query in ST. destruct (q_read c0 ch) as [c'|[q p|] c'| |]; try (injection ST as <- <- <-; exact Logic.I).
      pose proof (perform_lawful (x_g x) i0 cs0 en gn q p) as PW.
      destruct (perform (x_g x) i0 cs0 en gn q p) as [| |g' d'|g' cs' r d']; try discriminate ST; injection ST as <- <- <-; exact PW.
  - destruct (is_back o) eqn:IB; [|discriminate ST]. destruct (gstep (x_g x) o) as [[g' r]|]; [|discriminate ST]. injection ST as <- <- <-. destruct o; try discriminate IB; exact Logic.I.
Qed.

Lemma wruns_lawful C x0 h x : wruns C x0 h x -> wruns (fun g o r => C g o r /\ lawful o) x0 h x.
Proof using.
  induction 1 as [|h x e x' b d H IH ST CC]; [constructor|]. econstructor; [exact IH|exact ST|]. pose proof (wstep_lawful _ _ _ _ _ ST) as L. destruct d as [[o r]|]; [|exact Logic.I]. tauto.
Qed.

End Back.

(** ** The model stays *)
Section Row.
Variable farith : aop -> N -> N -> N.
Variable order : fieldmap -> fieldmap.
Variable hash : bytes -> N -> bytes.
Variable verify : bytes -> bytes -> bool.
Hypothesis order_perm : forall l, Permutation (order l) l.
Notation gstep := (gstep farith order hash verify).


Lemma node_stays key salt h g o g' r id nd : whole order hash verify key salt h g -> usual (o, r) -> NoDup (used (h ++ [(o, r)])) -> gstep g o = Some (g', r) ->
  (match o, r with
   | GDdl _ _ (SDropModel i _ _), GoDdl (OEmpty | OBool true) => i <> id
   | GDdl _ _ (SDropSpace s _ _), GoDdl (OEmpty | OBool true) => s <> fst id
   | _, _ => True
   end) ->
  aget ent_eqb id (g_nodes g) = Some nd -> exists nd', aget ent_eqb id (g_nodes g') = Some nd'.
Proof using order_perm.
  intros W US NU HS NL GN.
  assert (PUT : forall i x, exists nd', aget ent_eqb id (aput ent_eqb i x (g_nodes g)) = Some nd').
  { intros i x. destruct (ent_dec i id) as [-> |NE]; [rewrite (aget_put_same ent_eqb ent_eqb_eq); eauto|]. rewrite (aget_put_other ent_eqb ent_eqb_eq) by congruence. eauto. }
  assert (FR : ~ concerns g o id -> exists nd', aget ent_eqb id (g_nodes g') = Some nd').
  { intros NC. rewrite (node_frame farith order hash verify order_perm key salt h g o g' r id W US HS NC). eauto. }
  destruct o as [u p|i en s|i i' q|i'|i|i' w|i' w|i' u|i ok| |key' salt']; try (apply FR; cbn; tauto).
  - cbn [WholeModel.gstep] in HS. destruct (wants_models s && flushing g) eqn:WF; [injection HS as <- <-; eauto|].
    destruct (GnsModel.step order hash verify (g_sv g) (OpStmt i (WholeModel.seen g en s) s)) as [[sv' out]|] eqn:ST; [|injection HS as <- <-; eauto].
    destruct out as [b|o|]; try (injection HS as <- <-; eauto; fail). 
    assert (HS2 : gstep g (GDdl i en s) = Some (g', r)) by (cbn [WholeModel.gstep]; rewrite WF, ST; exact HS).
    injection HS as <- <-. unfold effect in *.
    destruct s as [n p x|n p|n f x|i' fs p x|i' k|i' f x|n op|n op|n|]; try (cbn [g_nodes]; eauto; fail).
    + destruct (did o) eqn:DD; [|cbn [g_nodes]; eauto]. apply FR. cbn. destruct o as [|[]| |]; try discriminate DD; congruence.
    + destruct (did o); [destruct (aget ent_eqb i' (n_models _)); cbn [g_nodes]; eauto|]. destruct o as [| |[]|]; cbn [g_nodes]; eauto. destruct (e_init _); cbn [g_nodes]; eauto.
    + destruct o as [| | |]; cbn [g_nodes]; eauto. destruct (aget ent_eqb i' (g_nodes g)); cbn [g_nodes]; eauto.
    + destruct (did o) eqn:DD; [|cbn [g_nodes]; eauto]. apply FR. cbn. destruct o as [|[]| |]; try discriminate DD; congruence.
  - cbn [WholeModel.gstep] in HS. destruct (nth_error _ i); [|injection HS as <- <-; eauto]. destruct (negb _); [injection HS as <- <-; eauto|].
    destruct (aget ent_eqb i' (g_nodes g)) as [n|]; [|injection HS as <- <-; eauto]. destruct (rstep _ _ _ _) as [m r0]. injection HS as <- <-. cbn [g_nodes]. eauto.
  - cbn [WholeModel.gstep] in HS. destruct (aget ent_eqb i' (g_nodes g)) as [n|]; [|injection HS as <- <-; eauto]. destruct (bstep _ _ _ _) as [m r0]. injection HS as <- <-. unfold put_back. cbn [g_nodes]. eauto.
  - destruct (nth_error (g_tasks g) i) as [t|] eqn:NT; [|apply FR; cbn; rewrite NT; tauto].
    cbn [WholeModel.gstep] in HS. rewrite NT in HS. destruct (aget ent_eqb (wt_id t) (g_nodes g)) as [n|] eqn:GT; [|injection HS as <- <-; eauto].
    destruct (negb _); [injection HS as <- <-; cbn [g_nodes]; eauto|]. repeat (match type of HS with context [match ?y with _ => _ end] => destruct y end); injection HS as <- <-; unfold put_back; cbn [g_nodes]; eauto.
  - cbn [WholeModel.gstep] in HS. destruct (aget ent_eqb i' (g_nodes g)) as [n|]; [|injection HS as <- <-; eauto]. destruct (bstep _ _ _ _) as [m r0]. injection HS as <- <-. unfold put_back. cbn [g_nodes]. eauto.
  - cbn [WholeModel.gstep] in HS. destruct (aget ent_eqb i' (g_nodes g)) as [n|]; [|injection HS as <- <-; eauto]. destruct (bstep _ _ _ _) as [m r0]. injection HS as <- <-. unfold put_back. cbn [g_nodes]. eauto.
  - cbn [WholeModel.gstep] in HS. destruct (aget ent_eqb i' (g_nodes g)) as [n|] eqn:GI; [|injection HS as <- <-; eauto].
    repeat (match type of HS with context [match ?y with _ => _ end] => destruct y end); injection HS as <- <-; unfold put_back; cbn [g_nodes]; eauto.
  - pose proof (restart_step farith order hash verify order_perm key salt h g key' salt' g' r W HS) as [W' _].
    destruct (synced_some g id nd (wo_sync _ _ _ _ _ _ _ W id) GN) as (mm & GM & _).
    cbn [WholeModel.gstep] in HS. destruct (flushing g) eqn:FL; [injection HS as <- <-; eauto|].
    cbn [GnsModel.step] in HS. destruct (boot hash verify key' salt' (w_log (sv_w (g_sv g)))) as [w|] eqn:BO; [|discriminate HS].
    destruct (boot_keeps order hash verify order_perm _ _ _ _ _ _ (wo_hist _ _ _ _ _ _ _ W) BO) as (EM & _).
    cbn [sv_w] in HS. destruct (load_nodes _ _ _ _) as [nodes|]; [|discriminate HS]. injection HS as <- <-.
    pose proof (wo_sync _ _ _ _ _ _ _ W' id) as SY. unfold synced in SY. cbn [g_nodes] in SY |- *. cbn [g_sv sv_w] in SY. rewrite EM, GM in SY.
    destruct (aget ent_eqb id nodes) as [nd'|]; [eauto|destruct SY].
Qed.

(** ** The row stays *)

(** what changes the row of a key, which is there or not *)
Definition untouched (lay : layout) (k : pkey) (row : option rfields) (q : rstmt) (r : rout) : Prop :=
  match q, r with
  | RInsert d, RoOk => row = None -> ins_key lay d <> k
  | RUpdate w _, RoOk | RDelete w, RoOk => row <> None -> asked lay w <> Some k
  | _, _ => True
  end.

Lemma row_bstep lay hb s k row bo br s' : lay_ok lay -> plain_hist farith order lay hb s -> orow_eq (rows_of (b_m s) k) row ->
  bstep farith order s bo = (s', br) -> calm s bo br -> (match bo with BStmt (RAlter _ _) => False | BRestart => m_queue (b_m s) = [] | _ => True end) ->
  br <> BoUb -> br <> BoStmt RoUb -> (forall q r, bo = BStmt q -> br = BoStmt r -> untouched lay k row q r) ->
  orow_eq (rows_of (b_m s') k) row.
Proof using order_perm.
  intros LO PH RW BS CA PL N1 N2 UT.
  destruct (plain_table farith order order_perm lay hb s LO PH) as (B & L & SD & TE).
  destruct (plain_table farith order order_perm lay (hb ++ [(bo, br)]) s' LO (ph_snoc farith order lay hb s bo s' br PH BS CA PL N1 N2)) as (_ & _ & _ & TE').
  eapply orow_eq_trans; [apply TE'|]. clear TE'. unfold table_of. rewrite stmts_app, fold_left_app. fold (table_of (fun m asg => fst (update_row farith (lo_fields lay) m asg)) lay (stmts hb)).
  specialize (TE : forall k, orow_eq (rows_of (b_m s) k) (table_of (fun m asg => fst (update_row farith (lo_fields lay) m asg)) lay (stmts hb) k)).
  set (T := table_of _ lay (stmts hb)) in *. clearbody T.
  assert (TR : orow_eq (T k) row) by (eapply orow_eq_trans; [apply orow_eq_sym, TE|exact RW]).
  destruct bo as [q| |i|w|w| |]; try exact TR. destruct br as [r| | | | |]; try exact TR. specialize (UT q r eq_refl eq_refl).
  cbn [stmts flat_map app fold_left].
  assert (RS : match q with RAlter _ _ => True | _ => exists m, rstep farith order (b_m s) q = (m, r) end).
  { destruct q; auto; cbn [bstep] in BS; destruct (rstep farith order (b_m s) _) as [m r1]; injection BS as _ <-; eauto. }
  pose proof (ri_g _ _ (bi_r _ B)) as GI. pose proof (bi_iffy _ B) as IF.
  destruct q as [d|w asg|w|w cols|cols n|ak ok]; cbn [tlog untouched] in *; try exact TR; [| |].
  - destruct r; try exact TR. unfold tput. destruct (pkey_eqb k (ins_key lay d)) eqn:KE; [|exact TR]. apply pkey_eqb_eq in KE. subst k.
    destruct RS as [m RS]. destruct (insert_cases farith order _ _ _ _ GI IF CA RS) as [(_ & _ & NR & _)|[(E & _)|(E & _)]]; [|discriminate E|discriminate E].
    rewrite L in NR. rewrite NR in RW. destruct row; [destruct RW|]. destruct (UT eq_refl eq_refl).
  - destruct (asked lay w) as [k1|] eqn:AS; [|exact TR]. destruct (T k1) as [m|] eqn:TK; [|exact TR]. unfold tput. destruct (pkey_eqb k k1) eqn:KE; [|exact TR].
    apply pkey_eqb_eq in KE. subst k1. rewrite TK in TR. destruct row as [row|]; [|destruct TR].
    assert (NO : r <> RoOk). { intros ->. destruct (UT ltac:(discriminate) eq_refl). }
    destruct CA as [CA|(C1 & C2 & C3)]; [injection CA as ->; destruct (NO eq_refl)|]. rewrite L in C3.
    cbn [orow_eq] in TR |- *. eapply row_eq_trans; [|exact TR].
    pose proof (update_cases farith order (b_m s) w asg GI IF) as UC. rewrite L, AS in UC. destruct RS as [m2 RS].
    destruct (aget pkey_eqb k (m_idx (b_m s))) as [i|] eqn:IX.
    2:{ specialize (TE k). unfold rows_of in TE. rewrite IX, TK in TE. destruct TE. }
    destruct UC as (o & _ & _ & RO & UC). specialize (TE k). rewrite RO, TK in TE. cbn [orow_eq] in TE.
    eapply row_eq_trans; [apply update_row_ext; intros c; symmetry; apply TE|].
    destruct (update_row farith (lo_fields lay) (ro_fields o) asg) as [m1 r1] eqn:UR. cbn [fst].
    assert (R1 : r1 = r). { destruct r1; rewrite UC in RS; injection RS as _ <-; auto. } subst r1.
    assert (ER : exists e, r = RoErr e). { revert UR. unfold update_row. destruct (upd_loop _ _ _ _ _ _); intros UR; injection UR as _ <-; eauto; congruence. }
    destruct ER as [e ->]. intros c. rewrite (update_error_restores farith _ _ _ _ _ C2 C3 UR c). apply TE.
  - destruct r; try exact TR. destruct (asked lay w) as [k1|] eqn:AS; [|exact TR]. unfold tput. destruct (pkey_eqb k k1) eqn:KE; [|exact TR].
    apply pkey_eqb_eq in KE. subst k1. destruct row as [row|]; [|exact Logic.I]. destruct (UT ltac:(discriminate) eq_refl).
Qed.

(** the facts kept about the model and the row *)
Definition holds (id : ent) (lay : layout) (k : pkey) (row : option rfields) (g : gst) : Prop :=
  exists nd hb, aget ent_eqb id (g_nodes g) = Some nd /\ lay_ok lay /\ plain_hist farith order lay hb (gview g id nd) /\ orow_eq (rows_of (nd_m nd) k) row.

Lemma lawful_usual o r : lawful o -> no_failed_force (o, r) -> usual (o, r).
Proof using.
  intros L F. destruct o as [u p|i en s|i id q|id|i|id w|id w|id u|i ok| |k z], r as [x|x|x| |x| | |]; try exact Logic.I.
  destruct s; try exact Logic.I; try exact L. exact F.
Qed.
Lemma mild_gentle id g o r : mild id g o r -> lawful o -> gentle false id g o r.
Proof using.
  unfold mild, gentle. destruct (aget ent_eqb id (g_nodes g)) as [nd|]; [|auto]. intros M L.
  destruct o as [u p|i en s|i x q|x|i|x w|x w|x u|i ok| |k z]; auto.
  - destruct s; auto. intros E R. destruct (M E R).
  - destruct q; auto.
Qed.

Definition loses (id : ent) (o : gop) (r : gout) : Prop :=
  match o, r with
  | GDdl _ _ (SDropModel i _ _), GoDdl (OEmpty | OBool true) => i = id
  | GDdl _ _ (SDropSpace s _ _), GoDdl (OEmpty | OBool true) => s = fst id
  | _, _ => False
  end.

Lemma row_gstep key salt h g o g' r id lay k row : whole order hash verify key salt h g -> usual (o, r) -> NoDup (used (h ++ [(o, r)])) -> gstep g o = Some (g', r) ->
  gentle false id g o r -> r <> GoFlush BoUb -> r <> GoFlush BoPanic -> r <> GoStmt RoUb ->
  ~ loses id o r -> (forall i q a, o = GDml i id q -> r = GoStmt a -> untouched lay k row q a) ->
  holds id lay k row g -> holds id lay k row g'.
Proof using order_perm.
  intros W US NU HS GE N1 N2 N3 NL UT (nd & hb & GN & LO & PH & RW).
  destruct (node_stays key salt h g o g' r id nd W US NU HS) as [nd' GN']; [|exact GN|].
  { revert NL. unfold loses. destruct o as [u p|i en s|i x q|x|i|x w|x w|x u|i ok| |kk z]; auto. destruct s; auto; destruct r as [x1|x1|x1| |x1| | |]; auto; destruct x1 as [|[]| |]; auto. }
  destruct (whole_step farith order hash verify order_perm key salt h g o g' r W US NU HS) as [_ TR]. specialize (TR id). unfold trans in TR. rewrite GN, GN' in TR.
  destruct TR as [_ [[V _]|(bo & br & IN & BS)]].
  - exists nd', hb. rewrite V. split; [exact GN'|]. split; [exact LO|]. split; [exact PH|]. assert (E : nd_m nd' = nd_m nd) by (change (b_m (gview g' id nd') = b_m (gview g id nd)); rewrite V; reflexivity). rewrite E. exact RW.
  - destruct (gentle_calm farith order hash verify false id g o r g' nd bo br GE HS GN IN) as [CA PL].
    destruct (induced_out farith order id _ _ _ _ _ _ IN BS N1 N2 N3) as (X1 & X2 & X3).
    assert (PL' : match bo with BStmt (RAlter _ _) => False | BRestart => m_queue (nd_m nd) = [] | _ => True end). { destruct bo as [[]| | | | | |]; auto. discriminate PL. }
    exists nd', (hb ++ [(bo, br)]). split; [exact GN'|]. split; [exact LO|]. split; [econstructor; eauto|].
    refine (row_bstep lay hb (gview g id nd) k row bo br (gview g' id nd') LO PH RW BS CA PL' X1 X3 _).
    intros q a -> ->. unfold induced in IN. destruct o as [u p|i en s|i x z|x|i|x w|x w|x u|i ok| |kk z], r as [x1|x1|x1| |x1| | |]; try (destruct IN; fail).
    all: try (destruct s; destruct IN; fail).
    all: try (destruct IN as (_ & E & _); discriminate E). all: try (destruct IN as ([y E] & _); discriminate E). all: try (destruct IN as (E & _); discriminate E).
    + destruct s; try (destruct IN; fail). destruct x1; try (destruct IN; fail). destruct IN as (-> & E & _). injection E as ->. destruct PL'.
    + destruct IN as (-> & E1 & E2). injection E1 as ->. injection E2 as ->. eapply UT; reflexivity.
Qed.

(** the acknowledged statement that makes or removes the row *)
Lemma made_gstep key salt h g i g' id nd lay hb k row q : whole order hash verify key salt h g -> NoDup (used (h ++ [(GDml i id q, GoStmt RoOk)])) ->
  gstep g (GDml i id q) = Some (g', GoStmt RoOk) -> gentle false id g (GDml i id q) (GoStmt RoOk) ->
  aget ent_eqb id (g_nodes g) = Some nd -> lay_ok lay -> plain_hist farith order lay hb (gview g id nd) ->
  match q with RInsert d => k = ins_key lay d /\ row = Some (ins_row lay d) | RDelete w => asked lay w = Some k /\ row = None | _ => False end ->
  holds id lay k row g'.
Proof using order_perm.
  intros W NU HS GE GN LO PH K.
  destruct (node_stays key salt h g (GDml i id q) g' (GoStmt RoOk) id nd W Logic.I NU HS Logic.I GN) as [nd' GN'].
  destruct (whole_step farith order hash verify order_perm key salt h g (GDml i id q) g' (GoStmt RoOk) W Logic.I NU HS) as [_ TR]. specialize (TR id). unfold trans in TR. rewrite GN, GN' in TR.
  destruct TR as [_ [[_ V]|(bo & br & IN & BS)]].
  { specialize (V []). cbn in V. destruct (ent_dec id id) as [_|X]; [discriminate V|destruct (X eq_refl)]. }
  destruct (gentle_calm farith order hash verify false id g _ _ g' nd bo br GE HS GN IN) as [CA _].
  destruct IN as (_ & -> & ->).
  assert (PH' : plain_hist farith order lay (hb ++ [(BStmt q, BoStmt RoOk)]) (gview g' id nd')).
  { econstructor; [exact PH|exact BS|exact CA| |discriminate|discriminate]. destruct q; auto. }
  exists nd', (hb ++ [(BStmt q, BoStmt RoOk)]). split; [exact GN'|]. split; [exact LO|]. split; [exact PH'|].
  destruct (plain_table farith order order_perm lay _ _ LO PH') as (_ & _ & _ & TE). eapply orow_eq_trans; [apply TE|].
  unfold table_of. rewrite stmts_app, fold_left_app. cbn [stmts flat_map app fold_left].
  destruct q as [d|w asg|w|w cols|cols n|ak ok]; try (destruct K; fail); destruct K as [K1 K2]; cbn [tlog].
  - subst k row. unfold tput. rewrite (eqb_r pkey_eqb pkey_eqb_eq). apply orow_eq_refl.
  - rewrite K1. unfold tput. rewrite (eqb_r pkey_eqb pkey_eqb_eq). subst row. exact Logic.I.
Qed.

(** what a SELECT of the key says *)
Lemma select_holds id lay k row g w cols : holds id lay k row g -> asked lay w = Some k ->
  exists nd, aget ent_eqb id (g_nodes g) = Some nd /\
  match row with
  | None => snd (rstep farith order (nd_m nd) (RSelect w cols)) = RoErr ENoRow
  | Some m => Forall (fun c => In c (map fst (lo_fields lay))) (wanted lay cols) ->
      exists vals, snd (rstep farith order (nd_m nd) (RSelect w cols)) = RoRow vals /\ shows lay (key_cell k) m (wanted lay cols) vals
  end.
Proof using order_perm.
  intros (nd & hb & GN & LO & PH & RW) AS. exists nd. split; [exact GN|].
  destruct (C24_durable_partial farith order order_perm lay hb (gview g id nd) LO PH) as [TE D]. cbv zeta in TE, D. specialize (D w cols). rewrite AS in D.
  specialize (TE k). pose proof (orow_eq_trans _ _ _ (orow_eq_sym _ _ TE) RW) as TR. clear TE.
  destruct (table_of _ lay (stmts hb) k) as [m|], row as [row|]; cbn [orow_eq] in TR; try (destruct TR; fail); [|exact D].
  intros F. destruct (D F) as (vals & E & SH). exists vals. split; [exact E|]. clear - SH TR. unfold shows in *. induction SH as [|c v cs vs HC HS IH]; constructor; [|exact IH].
  destruct HC as [HC|[H1 H2]]; [left; exact HC|right]. rewrite <- TR. auto.
Qed.
End Row.

Section Runs.
Variable farith : aop -> N -> N -> N.
Variable order : fieldmap -> fieldmap.
Variable hash : bytes -> N -> bytes.
Variable verify : bytes -> bytes -> bool.
Variable u8 : bytes -> bool.
Variable fl : bytes -> option N.
Variable ftoa : N -> bytes.
Hypothesis order_perm : forall l, Permutation (order l) l.
Notation gstep := (gstep farith order hash verify).
Notation wstep := (wstep farith order hash verify u8 fl ftoa).
Notation wruns := (wruns farith order hash verify u8 fl ftoa).
Notation whist := (whist farith order hash verify u8 fl ftoa).
Notation ghist := (ghist farith order hash verify).

(** the order of the history: what was asked of it, and what the grammar adds *)
Lemma hist_gentle id key salt h x : whist (mild id) key salt h x -> Forall no_failed_force (trace h) -> NoDup (used (trace h)) ->
  ghist (gentle false id) key salt (trace h) (x_g x) /\ Forall usual (trace h) /\ whole order hash verify key salt (trace h) (x_g x).
Proof using order_perm.
  intros H FF NU. pose proof (wruns_lawful farith order hash verify u8 fl ftoa _ _ _ _ H) as HL.
  pose proof (whist_ghist farith order hash verify u8 fl ftoa _ key salt h x HL) as GH.
  assert (US : Forall usual (trace h)).
  { clear - GH FF. revert FF. induction GH as [|h0 g o g' r GH IH HS [_ L] _ _ _]; intros FF; [constructor|]. apply Forall_app in FF as [F1 F2]. inversion F2; subst.
    apply Forall_app. split; [auto|]. constructor; [apply lawful_usual; assumption|constructor]. }
  assert (GG : ghist (gentle false id) key salt (trace h) (x_g x)).
  { clear - GH. induction GH as [|h0 g o g' r GH IH HS [M L] A B D]; [constructor|]. econstructor; eauto. apply mild_gentle; assumption. }
  split; [exact GG|]. split; [exact US|]. exact (ghist_whole farith order hash verify order_perm _ _ _ _ _ GG US NU).
Qed.

Lemma row_runs id key salt lay k row h1 x1 : whist (mild id) key salt h1 x1 -> holds farith order id lay k row (x_g x1) ->
  forall h2 x2, wruns (mild id) x1 h2 x2 -> Forall no_failed_force (trace (h1 ++ h2)) -> NoDup (used (trace (h1 ++ h2))) ->
  Forall (fun e => ~ loses id (fst e) (snd e) /\ forall i q a, e = (GDml i id q, GoStmt a) -> untouched lay k row q a) (trace h2) ->
  holds farith order id lay k row (x_g x2).
Proof using order_perm.
  intros H1 HO h2 x2 H2. induction H2 as [|h2 x e x' b d H2 IH ST CC]; intros FF NU PP; [exact HO|].
  rewrite trace_snoc in PP. cbn [snd] in PP. apply Forall_app in PP as [P1 P2].
  rewrite app_assoc, trace_snoc in FF, NU. cbn [snd] in FF, NU. apply Forall_app in FF as [F1 F2].
  pose proof NU as NU0. unfold used in NU0. rewrite flat_map_app in NU0. apply nodup_left in NU0. specialize (IH F1 NU0 P1).
  pose proof (wstep_event farith order hash verify u8 fl ftoa _ _ _ _ _ ST) as EV. destruct d as [[o r]|]; [|rewrite EV; exact IH].
  assert (HX : whist (mild id) key salt (h1 ++ h2) x) by (eapply wruns_app; eassumption).
  destruct (hist_gentle id key salt _ _ HX F1 NU0) as (_ & _ & W). destruct CC as (C1 & C2 & C3 & C4).
  pose proof (wstep_lawful farith order hash verify u8 fl ftoa _ _ _ _ _ ST) as L. cbn in L.
  inversion F2; subst. inversion P2; subst. match goal with P : _ /\ _ |- _ => destruct P as [Q1 Q2] end. cbn [fst snd] in Q1.
  refine (row_gstep farith order hash verify order_perm key salt (trace (h1 ++ h2)) (x_g x) o (x_g x') r id lay k row W _ NU EV _ C2 C3 C4 Q1 _ IH).
  - apply lawful_usual; assumption.
  - apply mild_gentle; assumption.
  - intros i q a -> ->. eapply Q2. reflexivity.
Qed.
End Runs.
