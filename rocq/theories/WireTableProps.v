(** C113: every data packet is answered as the table of the acknowledged statements says. *)
From Coq Require Import Strings.String List NArith Bool Arith Lia Permutation.
From Verif Require Import Bytes AMap DataModel CodecModel NumModel NumProofs NetModel NetProofs NetProps GnsModel GnsProofs GnsProps GnsHist RowModel RowSpec RowProofs RowLemmas RowUpd RowAlter RowTable RowProps
  LexModel LexSpec ParseModel ParseSpec ParseSel DdlModel DdlSpec DdlAll ExecModel InspectModel JsonSpec InspectProofs InspectReach InspectProps BatchModel BatchProofs BatchTable BatchProps UpgradeModel
  WholeModel WholeSpec WholeProofs WholeInv WholeHist WholeProps WireModel WireSpec WireProofs WirePerform WireLogin WireProps WireBack WireBackProps WireInspect WireInspectProps.
Import ListNotations.
Local Open Scope nat_scope.

(** the columns asked for are columns of the model, and not more than it has *)
Definition columns_ok (lay : layout) (cols : option (list bytes)) : Prop :=
  Forall (fun c => In c (map fst (lo_fields lay))) (wanted lay cols) /\ length (wanted lay cols) <= length (lo_fields lay).

(** [due lay T st a]: on a table [T] with the columns [lay] the answer to [st] is [a] ([None]: none, the
    connection is closed). What an UPDATE makes of a row is [update_row], of which C20 and C94 speak. *)
Definition due (farith : aop -> N -> N -> N) (lay : layout) (T : table) (st : rstmt) (a : option result) : Prop :=
  match st with
  | RInsert d =>
      (conforming lay d -> T (ins_key lay d) = None -> a = Some ResEmpty) /\
      (conforming lay d -> T (ins_key lay d) <> None -> a = Some (ResError 108)) /\
      (~ conforming lay d -> a = Some (ResError 109))
  | RUpdate w asg =>
      match asked lay w with
      | None => a = Some (ResError 110)
      | Some k => match T k with
                  | None => a = Some (ResError 111)
                  | Some m => match snd (update_row farith (lo_fields lay) m asg) with
                              | RoOk => a = Some ResEmpty
                              | RoErr e => a = Some (ResError (dml_code e))
                              | _ => a = None
                              end
                  end
      end
  | RDelete w =>
      match asked lay w with
      | None => a = Some (ResError 110)
      | Some k => a = Some (match T k with None => ResError 111 | Some _ => ResEmpty end)
      end
  | RSelect w cols =>
      match asked lay w with
      | None => a = Some (ResError 110)
      | Some k => match T k with
                  | None => a = Some (ResError 111)
                  | Some m =>
                      (Forall (fun c => In c (map fst (lo_fields lay))) (wanted lay cols) ->
                         exists vals, a = Some (ResRow vals) /\ shows lay (key_cell k) m (wanted lay cols) vals) /\
                      (~ Forall (fun c => In c (map fst (lo_fields lay))) (wanted lay cols) -> a = Some (ResError 101))
                  end
      end
  | RSelectAll cols limit =>
      (columns_ok lay cols -> exists all rows, NoDup all /\ (forall k, In k all <-> T k <> None) /\
         a = Some (ResRows (N.of_nat (length (wanted lay cols))) rows) /\
         Forall2 (fun k r => exists m, T k = Some m /\ shows lay (pk_cell (lo_ptag lay) k) m (wanted lay cols) r) (firstn (N.to_nat limit) all) rows) /\
      (~ columns_ok lay cols -> a = Some (ResError 101))
  | RAlter _ _ => False
  end.

Section C113.
Variable farith : aop -> N -> N -> N.
Variable order : fieldmap -> fieldmap.
Variable hash : bytes -> N -> bytes.
Variable verify : bytes -> bytes -> bool.
Variable u8 : bytes -> bool.
Variable fl : bytes -> option N.
Variable ftoa : N -> bytes.
Hypothesis order_perm : forall l, Permutation (order l) l.
Notation gstep := (gstep farith order hash verify).
Notation wstep := (wstep farith order hash verify u8 fl ftoa).
Notation sending := (sending farith order hash verify u8 fl ftoa).
Notation says := (says u8 fl).
Notation sent := (NetProps.sent ftoa).

Lemma update_row_out fs a b asg : row_eq a b -> snd (update_row farith fs a asg) = snd (update_row farith fs b asg).
Proof using.
  intros H. unfold update_row. pose proof (upd_loop_ext farith fs asg false a b [] H) as X.
  destruct (upd_loop farith fs asg false a []); destruct (upd_loop farith fs asg false b []); cbn [ur_eq] in X; try contradiction; cbn [snd]; auto.
  destruct X as (-> & _). reflexivity.
Qed.
Lemma update_row_kind fs m asg : match snd (update_row farith fs m asg) with RoRow _ | RoRows _ => False | _ => True end.
Proof using. unfold update_row. destruct (upd_loop farith fs asg false m []); exact Logic.I. Qed.
Lemma shows_eq lay c m m' cs vs : row_eq m m' -> shows lay c m cs vs -> shows lay c m' cs vs.
Proof using.
  intros TE SH. unfold shows in *. induction SH as [|x v cs vs HC HS IH]; constructor; [|exact IH].
  destruct HC as [HC|[H1 H2]]; [left; exact HC|right]. rewrite <- TE. auto.
Qed.
Lemma select_all_bad lay s cols limit : m_lay s = lay -> ~ columns_ok lay cols -> snd (rstep farith order s (RSelectAll cols limit)) = RoErr EField.
Proof using.
  intros L N. cbn [rstep]. unfold exec_select_all. rewrite L. destruct cols as [l|].
  - destruct (Nat.ltb (length (lo_fields lay)) (length l)) eqn:E1; [reflexivity|]. destruct (existsb _ l) eqn:E2; [reflexivity|]. exfalso. apply N.
    apply Nat.ltb_ge in E1. split; [|exact E1]. cbn [wanted]. apply Forall_forall. intros c IN. apply f_has_keys.
    destruct (f_has c (lo_fields lay)) eqn:F; [reflexivity|]. exfalso. rewrite <- not_true_iff_false in E2. apply E2. apply existsb_exists. exists c. rewrite F. auto.
  - exfalso. apply N. split; cbn [wanted]; [apply Forall_forall; auto|]. rewrite map_length. lia.
Qed.

(** the model and its table *)
Lemma due_of lay hb s st w : lay_ok lay -> plain_hist farith order lay hb s -> is_dml st = true ->
  (forall d, st = RInsert d -> data_ok d) ->
  (forall cols limit, st = RSelectAll cols limit -> w = N.of_nat (length (wanted lay cols))) ->
  let T := table_of (fun m asg => fst (update_row farith (lo_fields lay) m asg)) lay (stmts hb) in
  snd (rstep farith order (b_m s) st) <> RoUb ->
  due farith lay T st (reply w (GoStmt (snd (rstep farith order (b_m s) st)))).
Proof using order_perm.
  intros LO H DM DO WD T NU. destruct (plain_table farith order order_perm lay hb s LO H) as (B & L & SD & TE). fold T in TE.
  pose proof (binv_tinv s lay B L SD) as I. pose proof I as [IL IS IF IN IR].
  assert (GI : ginv (b_m s)).
  { constructor; [congruence|exact IN|]. intros k i G. destruct (IR _ _ G) as (o & E & K & _). eauto. }
  assert (TN : forall k, T k = None <-> rows_of (b_m s) k = None).
  { intros k. specialize (TE k). destruct (rows_of (b_m s) k), (T k); cbn [orow_eq] in TE; try contradiction; split; congruence. }
  destruct st as [d|wh asg|wh|wh cols|cols limit|ak ok]; cbn [due]; [| | | | |discriminate DM].
  - destruct (rstep farith order (b_m s) (RInsert d)) as [s' r] eqn:E. cbn [snd] in *.
    destruct (insert_cases farith order (b_m s) d s' r GI IF (DO d eq_refl) E) as [(-> & C & R0 & _)|[(-> & NC & ->)|(-> & C & R0 & ->)]]; rewrite IL in *; cbn [reply dml_code].
    + split; [reflexivity|]. split; intros X; [intros Y; destruct (Y (proj2 (TN _) R0))|contradiction].
    + split; [contradiction|]. split; [contradiction|reflexivity].
    + split; [intros _ Y; apply TN in Y; contradiction|]. split; [reflexivity|contradiction].
  - pose proof (update_cases farith order (b_m s) wh asg GI IF) as U. rewrite IL in U. destruct (asked lay wh) as [k|]; [|rewrite U; reflexivity].
    specialize (TE k). unfold rows_of at 1 in TE. destruct (aget pkey_eqb k (m_idx (b_m s))) as [i|] eqn:G.
    + destruct U as (o & EO & K & R & U). rewrite EO in TE. destruct (T k) as [m|]; cbn [orow_eq] in TE; [|contradiction].
      rewrite <- (update_row_out _ _ _ asg TE). pose proof (update_row_kind (lo_fields lay) (ro_fields o) asg) as KI.
      destruct (update_row farith (lo_fields lay) (ro_fields o) asg) as [m1 r1]. cbn [snd] in *. destruct r1; rewrite U in *; cbn [snd reply] in *; try reflexivity; destruct KI.
    + destruct (T k); cbn [orow_eq] in TE; [contradiction|]. rewrite U. reflexivity.
  - cbn [rstep] in *. unfold exec_delete in *. rewrite IF, IL in *.
    assert (UP : tuniq_is_unique (tsel_uniq (lo_ptag lay)) = true) by (destruct LO as (_ & _ & f & _ & _ & U); exact U).
    pose proof (resolve_where_asked lay wh UP) as RW. destruct (resolve_where lay wh) as [x|]; rewrite RW; [|reflexivity].
    pose proof (TN (lit_key x)) as TK. unfold rows_of in TK. cbn [bump_dver set_dver m_idx] in *.
    destruct (aget pkey_eqb (lit_key x) (m_idx (b_m s))) as [i|] eqn:G.
    + destruct (IR _ _ G) as (o & E1 & _). rewrite E1 in TK. destruct (T (lit_key x)); [|destruct TK as [X _]; discriminate (X eq_refl)].
      cbn [m_objs] in *. rewrite ?E1 in *. cbn [snd reply] in *. reflexivity.
    + destruct TK as [_ X]. rewrite (X eq_refl). reflexivity.
  - pose proof (select_outcome farith order lay (b_m s) wh cols LO I) as S1. destruct (asked lay wh) as [k|]; [|rewrite S1; reflexivity].
    specialize (TE k). destruct (rows_of (b_m s) k) as [m|], (T k) as [m'|]; cbn [orow_eq] in TE; try contradiction; [|rewrite S1; reflexivity].
    destruct S1 as [SA SB]. split; intros F.
    + destruct (SA F) as (vals & E & SH). exists vals. rewrite E. split; [reflexivity|]. eapply shows_eq; eassumption.
    + rewrite (SB F). reflexivity.
  - split.
    + intros [F LE]. destruct (select_all_outcome farith order lay (b_m s) cols limit LO I) as [SA _]. destruct (SA F LE) as (all & rows & ND & IA & E & FR).
      exists all, rows. split; [exact ND|]. split; [intros k; rewrite IA; rewrite TN; reflexivity|]. rewrite E, (WD cols limit eq_refl). split; [reflexivity|].
      clear - FR TE. induction FR as [|k r ks rs (m & R & SH) FR IH]; constructor; [|exact IH].
      specialize (TE k). rewrite R in TE. destruct (T k) as [m'|]; cbn [orow_eq] in TE; [|contradiction]. exists m'. split; [reflexivity|]. eapply shows_eq; eassumption.
    + intros N. rewrite (select_all_bad lay (b_m s) cols limit IL N). reflexivity.
Qed.

(** what the histories give *)
Lemma table_at key salt id h x : whist farith order hash verify u8 fl ftoa (mild id) key salt h x -> Forall no_failed_force (trace h) -> NoDup (used (trace h)) ->
  match aget ent_eqb id (n_models (w_ns (sv_w (g_sv (x_g x))))) with
  | None => aget ent_eqb id (g_nodes (x_g x)) = None
  | Some mm => exists nd hb, aget ent_eqb id (g_nodes (x_g x)) = Some nd /\ born id (trace h) (md_lay mm) /\ lay_ok (md_lay mm) /\
      plain_hist farith order (md_lay mm) hb (gview (x_g x) id nd) /\ stmts hb = own id (trace h) /\ m_lay (nd_m nd) = md_lay mm
  end.
Proof using order_perm.
  intros H FF NU. destruct (hist_gentle farith order hash verify u8 fl ftoa order_perm id key salt h x H FF NU) as (GH & US & W).
  pose proof (wo_sync _ _ _ _ _ _ _ W id) as SY. unfold synced in SY.
  destruct (aget ent_eqb id (g_nodes (x_g x))) as [nd|] eqn:GN.
  - destruct (aget ent_eqb id (n_models (w_ns (sv_w (g_sv (x_g x)))))) as [mm|] eqn:GM; [|destruct SY]. destruct SY as (L & _).
    destruct (gentle_hist farith order hash verify order_perm false id _ key salt _ _ (fun _ _ _ c => c) GH US NU nd GN) as (lay & hb & _ & PH & SB & BO & LO).
    destruct (plain_table farith order order_perm lay hb _ LO (PH eq_refl)) as (_ & L2 & _).
    assert (E : lay = md_lay mm) by (rewrite <- L; symmetry; exact L2). clear L2. subst lay. exists nd, hb. repeat (split; [first [reflexivity|assumption|exact (PH eq_refl)]|]). exact L.
  - destruct (aget ent_eqb id (n_models (w_ns (sv_w (g_sv (x_g x)))))) as [mm|] eqn:GM; [destruct SY|reflexivity].
Qed.

(** Full claim: every data packet is answered as the table of the acknowledged statements says. Proved:
    for histories with no failed write to the model's file, no ALTER MODEL of it, UPDATEs that succeed or
    are refused in the harmless way, restarts with the model's changes written, no forced DROP SPACE that
    failed, and fresh uuids; and for packets whose UPDATE is defined (C94). Missing: those. *)
Theorem C113_data_partial : forall key salt id st h x j i cs l ch q p en gn,
  sending (mild id) key salt h x j i cs l -> completed_by l ch q p -> says gn cs q p (SayData id st) ->
  Forall no_failed_force (trace h) -> NoDup (used (trace h)) ->
  match aget ent_eqb id (n_models (w_ns (sv_w (g_sv (x_g x))))) with
  | None => exists x' d, wstep x (WRecv j en gn ch) = Some (x', (sent (ResError 100), d)) /\ x_g x' = x_g x /\ idle x' j i cs /\ others j x x'
  | Some mm =>
      let lay := md_lay mm in
      let T := table_of (fun m asg => fst (update_row farith (lo_fields lay) m asg)) lay (own id (trace h)) in
      born id (trace h) lay /\
      ((forall w asg k m, st = RUpdate w asg -> asked lay w = Some k -> T k = Some m -> snd (update_row farith (lo_fields lay) m asg) <> RoUb) ->
       exists a x' d, due farith lay T st a /\ others j x x' /\
         match a with
         | Some res => wstep x (WRecv j en gn ch) = Some (x', (sent res, d)) /\ idle x' j i cs
         | None => wstep x (WRecv j en gn ch) = Some (x', ([], d)) /\ closed x' j
         end)
  end.
Proof using order_perm.
  intros key salt id st h x j i cs l ch q p en gn SD CB SY FF NU.
  destruct (C110_data_partial farith order hash verify u8 fl ftoa (mild id) key salt h x j i cs l ch q p en gn id st SD CB SY) as (g' & r & GS & X).
  destruct (sending_at farith order hash verify u8 fl ftoa (mild id) key salt h x j i cs l ch q p en gn SD CB) as (_ & WH & [se SE] & _).
  assert (LW : lawful (GDml i id st)) by (inversion SY; subst; eapply said_data; eassumption).
  assert (DM : is_dml st = true).
  { destruct st; try reflexivity. exfalso. inversion SY as [ts id0 st0 RA DS| | |]; subst. inversion DS. }
  pose proof (table_at key salt id h x WH FF NU) as TA. cbn [WholeModel.gstep] in GS. rewrite SE, DM in GS. cbn [negb] in GS.
  destruct (aget ent_eqb id (n_models (w_ns (sv_w (g_sv (x_g x)))))) as [mm|].
  - destruct TA as (nd & hb & GN & BO & LO & PH & SB & ML). cbv zeta. split; [exact BO|]. intros UB. rewrite GN in GS.
    pose proof (due_of (md_lay mm) hb (gview (x_g x) id nd) st (width (x_g x) id st) LO PH DM) as D. cbv zeta in D. rewrite SB in D.
    change (b_m (gview (x_g x) id nd)) with (nd_m nd) in D.
    destruct (rstep farith order (nd_m nd) st) as [m' a] eqn:RS. cbn [snd] in D. injection GS as EG <-.
    assert (NUB : a <> RoUb).
    { destruct (plain_table farith order order_perm _ _ _ LO PH) as (B & L & SD0 & TE). rewrite SB in TE. pose proof (binv_tinv _ _ B L SD0) as I.
      change (b_m (gview (x_g x) id nd)) with (nd_m nd) in *. pose proof I as [IL IS IF IN IR].
      assert (GI : ginv (nd_m nd)).
      { constructor; [congruence|exact IN|]. intros k i0 G. destruct (IR _ _ G) as (o & E & K & _). eauto. }
      destruct st as [d|wh asg|wh|wh cols|cols limit|ak ok]; [| | | | |discriminate DM].
      - destruct (insert_cases farith order (nd_m nd) d m' a GI IF LW RS) as [(-> & _)|[(-> & _)|(-> & _)]]; discriminate.
      - pose proof (update_cases farith order (nd_m nd) wh asg GI IF) as U. rewrite IL in U. destruct (asked (md_lay mm) wh) as [k|] eqn:AS; [|rewrite U in RS; injection RS as _ <-; discriminate].
        specialize (TE k). destruct (aget pkey_eqb k (m_idx (nd_m nd))) as [i0|] eqn:G; [|rewrite U in RS; injection RS as _ <-; discriminate].
        destruct U as (o & EO & K & R & U). rewrite R in TE. destruct (table_of _ (md_lay mm) (own id (trace h)) k) as [m|] eqn:TK; cbn [orow_eq] in TE; [|contradiction].
        pose proof (UB wh asg k m eq_refl AS TK) as UN. rewrite <- (update_row_out _ _ _ asg TE) in UN.
        destruct (update_row farith (lo_fields (md_lay mm)) (ro_fields o) asg) as [m1 r1]. cbn [snd] in UN. destruct r1; rewrite U in RS; injection RS as _ <-; exact UN.
      - cbn [rstep] in RS. unfold exec_delete in RS. rewrite IF in RS. destruct (resolve_where _ wh) as [y|]; [|injection RS as _ <-; discriminate].
        cbn [bump_dver set_dver m_idx m_objs] in RS. destruct (aget pkey_eqb (lit_key y) (m_idx (nd_m nd))) as [i0|]; [|injection RS as _ <-; discriminate].
        injection RS as _ <-. discriminate.
      - pose proof (select_outcome farith order (md_lay mm) (nd_m nd) wh cols LO I) as S1. rewrite RS in S1. cbn [snd] in S1.
        destruct (asked (md_lay mm) wh); [|subst a; discriminate]. destruct (rows_of (nd_m nd) _); [|subst a; discriminate].
        intros ->. destruct S1 as [SA SB2]. assert (NF : ~ Forall (fun c => In c (map fst (lo_fields (md_lay mm)))) (wanted (md_lay mm) cols)).
        { intros F. destruct (SA F) as (v & E & _). discriminate E. } discriminate (SB2 NF).
      - cbn [rstep] in RS. unfold exec_select_all in RS. destruct (match cols with None => false | Some l0 => _ end); [injection RS as _ <-; discriminate|].
        destruct (scan_rows _ _ _ _ _) as [ob v]. injection RS as _ <-. destruct v; discriminate. }
    destruct (X ltac:(congruence)) as (x' & b & ST & _ & OT & RP).
    exists (reply (width (x_g x) id st) (GoStmt a)), x'. eexists. split.
    { apply D; [| |exact NUB].
      - intros d ->. exact LW.
      - intros cols limit ->. cbn [width]. destruct cols; [reflexivity|]. rewrite GN, ML. cbn [wanted]. rewrite map_length. reflexivity. }
    split; [exact OT|]. destruct (reply (width (x_g x) id st) (GoStmt a)) as [res|].
    + destruct RP as [-> ID]. split; [exact ST|exact ID].
    + destruct RP as (_ & -> & CL). split; [exact ST|exact CL].
  - rewrite TA in GS. injection GS as <- <-. destruct (X ltac:(discriminate)) as (x' & b & ST & E & OT & RP). cbn [reply] in RP. destruct RP as [-> ID].
    exists x'. eexists. split; [exact ST|]. auto.
Qed.

(** The number of rows that INSPECT MODEL tells is the number of keys in that table, and the columns that
    it describes are those of the CREATE MODEL. *)
Theorem C113_count_partial : forall key salt id h x j i cs l ch q p en gn mm,
  sending (mild id) key salt h x j i cs l -> completed_by l ch q p -> says gn cs q p (SayInspect (insp_req_of (InModel id))) ->
  Forall no_failed_force (trace h) -> NoDup (used (trace h)) ->
  aget ent_eqb id (n_models (w_ns (sv_w (g_sv (x_g x))))) = Some mm ->
  let lay := md_lay mm in
  let T := table_of (fun m asg => fst (update_row farith (lo_fields lay) m asg)) lay (own id (trace h)) in
  born id (trace h) lay /\ exists all, NoDup all /\ (forall k, In k all <-> T k <> None) /\
    ((N.of_nat (length all) < two64)%N ->
     exists x' t r, wstep x (WRecv j en gn ch) = Some (x', (sent (ResString t), None)) /\ x_g x' = x_g x /\ idle x' j i cs /\ others j x x' /\
       dec_text (N.of_nat (length all)) r /\ json (JObj [(bstr "decl", JStr (describe lay)); (bstr "rows", JNum r); (bstr "properties", JObj [])]) t).
Proof using order_perm.
  intros key salt id h x j i cs l ch q p en gn mm SD CB SY FF NU GM lay T.
  destruct (sending_at farith order hash verify u8 fl ftoa (mild id) key salt h x j i cs l ch q p en gn SD CB) as (_ & WH & _ & _).
  pose proof (table_at key salt id h x WH FF NU) as TA. rewrite GM in TA. destruct TA as (nd & hb & GN & BO & LO & PH & SB & ML).
  split; [exact BO|]. destruct (plain_table farith order order_perm _ _ _ LO PH) as (B & L & SD0 & TE). rewrite SB in TE. pose proof (binv_tinv _ _ B L SD0) as I.
  change (b_m (gview (x_g x) id nd)) with (nd_m nd) in *. pose proof I as [IL IS IF IN IR].
  exists (map fst (m_idx (nd_m nd))). split; [exact IN|]. split.
  { intros k. specialize (TE k). fold lay in TE. fold T in TE. unfold rows_of in TE. destruct (aget pkey_eqb k (m_idx (nd_m nd))) as [i0|] eqn:G.
    - destruct (IR _ _ G) as (o & E1 & _). rewrite E1 in TE. destruct (T k); cbn [orow_eq] in TE; [|contradiction]. split; [discriminate|]. intros _.
      apply aget_some_key in G; [exact G|apply pkey_eqb_eq].
    - destruct (T k); cbn [orow_eq] in TE; [contradiction|]. apply (aget_none _ pkey_eqb_eq) in G. split; [intros Y; destruct (G Y)|congruence]. }
  intros LT. assert (RA : rows_at id (x_g x) = N.of_nat (length (map fst (m_idx (nd_m nd))))) by (unfold rows_at; rewrite GN, map_length; reflexivity).
  rewrite <- RA in *. exact (C55_wire_model farith order (fun l0 => Permutation_sym (order_perm l0)) hash verify u8 fl ftoa (mild id) key salt h x j i cs l ch q p en gn id mm SD CB SY GM LT).
Qed.
End C113.
Print Assumptions C113_data_partial.
Print Assumptions C113_count_partial.

(** ** The run of C111, after the restart: four rows *)
Definition bx_T : table := table_of (fun m asg => fst (update_row noarith (lo_fields bx_lay) m asg)) bx_lay (own wx_i (trace bx_h3)).
Definition bx_all : bytes := packet (bstr "select all n, id from items limit ?") (vx_par [3%N]).
Example C113_example :
  bx_sending (mild wx_i) gx_pw 0 bx_h3 bx_x2 2 0 (Some gx_s) [] /\ completed_by [] bx_all (bstr "select all n, id from items limit ?") (vx_par [3%N]) /\
  says (fun _ => true) (fun _ => None) vx_gn (Some gx_s) (bstr "select all n, id from items limit ?") (vx_par [3%N])
    (SayData wx_i (RSelectAll (Some [bstr "n"; bstr "id"]) 3)) /\
  Forall no_failed_force (trace bx_h3) /\ NoDup (used (trace bx_h3)) /\
  option_map md_lay (aget ent_eqb wx_i (n_models (w_ns (sv_w (g_sv (x_g bx_x2)))))) = Some bx_lay /\
  map (fun k => bx_T (PkUInt k)) [1; 2; 3; 4; 9]%N =
    [Some [(bstr "n", CQw QU8 10)]; Some [(bstr "n", CQw QU8 21)]; Some [(bstr "n", CQw QU8 30)]; Some [(bstr "n", CQw QU8 40)]; None] /\
  map (fun e => option_map (fun y => option_map fst (client_response (fst (snd y)))) (vx_step bx_x2 e))
    [vx_recv 2 0 bx_all; vx_d 2 "insert into items(?, ?)" [1; 10]%N; vx_d 2 "insert into items(?, ?)" [9; 300]%N; vx_d 2 "insert into items(?, ?)" [9; 90]%N;
     vx_d 2 "delete from items where id = ?" [9%N]; vx_d 2 "delete from items where id = ?" [4%N]; vx_d 2 "delete from items where n = ?" [4%N];
     vx_d 2 "select all n, id, n from items limit ?" [3%N]; vx_d 2 "update items set n = ? where id = ?" [22; 2]%N] =
  map (fun r => Some (Some r))
    [WRows 2 [[VUInt 2 10; VUInt 5 1]; [VUInt 2 30; VUInt 5 3]; [VUInt 2 21; VUInt 5 2]]; WErr 108; WErr 109; WEmpty; WErr 111; WEmpty; WErr 110; WErr 101; WEmpty] /\
  option_map (fun y => fst (snd y)) (vx_step bx_x2 (vx_q 2 0 "inspect model items")) =
    Some (NetProps.sent (fun _ => []) (ResString (bstr "{""decl"":""{*id:UInt64,!n:UInt8}"",""rows"":4,""properties"":{}}"))).
Proof.
  split; [exact bx_second|].
  split; [exists bx_all; split; [apply packet_is_packet; vm_compute; reflexivity|]; split; [vm_compute; reflexivity|]; split; [constructor|]; split; [vm_compute; discriminate|]; vm_compute; reflexivity|].
  split; [apply (vx_says vx_gn (Some gx_s) true); vm_compute; reflexivity|].
  split; [apply (all_ok forceb _ _ forceb_ok); vm_compute; reflexivity|].
  split; [assert (E : used (trace bx_h3) = [11; 12]%N) by (vm_compute; reflexivity); rewrite E; repeat constructor; cbn; intuition discriminate|].
  split; [vm_compute; reflexivity|]. split; [vm_compute; reflexivity|]. split; vm_compute; reflexivity.
Qed.
