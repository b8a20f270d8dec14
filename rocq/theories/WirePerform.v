(** What a query does, by what its text says. *)
From Coq Require Import Strings.String List NArith Bool Arith Lia.
From Verif Require Import Bytes AMap DataModel CodecModel NumModel NetModel NetProps GnsModel RowModel RowSpec RowProofs LexModel LexSpec LexProofs LexProps
  ParseModel ParseSpec ParseProofs ParseSel ParseIns ParseProps DdlModel DdlSpec DdlProofs DdlAll DdlProps ExecModel InspectModel
  DictModel DictProofs GnsProofs GnsHist BatchModel UpgradeModel WholeModel WholeSpec WireModel WireSpec WireProofs.
Import ListNotations.

(** the dispatcher always comes to an end, and leaves the defined behaviour only at SELECT ALL *)
Lemma of_pres_sound {A} (f : A -> request) (r : pres A) : sound r -> of_pres f r <> DFuel /\ of_pres f r <> DUb.
Proof. intros [[x ->]|[e ->]]; split; discriminate. Qed.
Lemma of_pres_panic {A} (f : A -> request) (r : pres A) : sound r \/ r = PPanic -> of_pres f r <> DFuel /\ of_pres f r <> DUb.
Proof. intros [S| ->]; [apply of_pres_sound; exact S|split; discriminate]. Qed.
Definition sel_all_text (ts : list token) : Prop := exists r, ts = kst KsSelect :: kmis KmAll :: r.
Lemma dispatch_ends gn root cs ts : dispatch (gn_text gn) (gn_bin gn) (gn_now gn) root cs ts <> DFuel /\
  (dispatch (gn_text gn) (gn_bin gn) (gn_now gn) root cs ts = DUb -> sel_all_text ts).
Proof.
  assert (W : forall r : dres, r <> DFuel /\ r <> DUb -> r <> DFuel /\ (r = DUb -> sel_all_text ts)) by (intros r [A B]; split; [exact A|contradiction]).
  destruct ts as [|[|[k|]| |] t]; try (split; discriminate). cbn [dispatch].
  destruct (is_blocking k) eqn:B.
  - apply W. unfold blocking. destruct (negb _); [split; discriminate|]. destruct t as [|a [|b t]]; try (split; discriminate).
    pose proof (C60_inside_partial None) as IN.
    destruct k; try (split; discriminate); repeat (match goal with |- context [if ?x then _ else _] => destruct x end); try (split; discriminate).
    + apply of_pres_sound. apply IN.
    + apply of_pres_sound. apply IN.
    + apply of_pres_panic. destruct (create_model_class (b :: t)) as [[X|X] _]; auto.
    + apply of_pres_sound. apply IN.
    + apply of_pres_panic. destruct (alter_model_class (b :: t)) as [X|[X _]]; auto.
    + apply of_pres_sound. apply IN.
    + apply of_pres_sound. apply IN.
  - destruct k; try discriminate B; cbn [nonblocking]; try (split; discriminate).
    + apply W, of_pres_sound. apply (C60_inside_partial None).
    + apply W, of_pres_sound. apply (C60_inside_partial cs).
    + apply W, of_pres_panic. destruct (insert_class (gn_text gn) (gn_bin gn) (gn_now gn) cs t) as [X|[X _]]; auto.
    + assert (SEL : forall t0, of_pres RqSelect (select_of cs t0) <> DFuel /\ of_pres RqSelect (select_of cs t0) <> DUb).
      { intros t0. apply of_pres_panic. destruct (select_class cs t0) as [X|[X _]]; auto. }
      destruct t as [|a t]; [apply W, SEL|].
      assert (C : a = kmis KmAll \/ nonblocking (gn_text gn) (gn_bin gn) (gn_now gn) cs KsSelect (a :: t) = of_pres RqSelect (select_of cs (a :: t))) by (destruct a as [|[|[]]| |]; auto).
      destruct C as [-> |C]; [|cbn [nonblocking] in C; rewrite C; apply W, SEL]. cbn [kmis]. split; [|intros _; exists t; reflexivity].
      destruct (select_all_class cs t) as [[[x ->]|[e ->]]|[-> _]]; discriminate.
    + apply W, of_pres_sound. apply update_sound.
    + apply W, of_pres_sound. apply delete_sound.
Qed.

Local Open Scope nat_scope.
Section Perform.
Variable farith : aop -> N -> N -> N.
Variable order : fieldmap -> fieldmap.
Variable hash : bytes -> N -> bytes.
Variable verify : bytes -> bytes -> bool.
Variable u8 : bytes -> bool.
Variable fl : bytes -> option N.
Variable ftoa : N -> bytes.
Notation gstep := (gstep farith order hash verify).
Notation perform := (perform farith order hash verify u8 fl ftoa).
Notation wstep := (wstep farith order hash verify u8 fl ftoa).
Notation wruns := (wruns farith order hash verify u8 fl ftoa).
Notation whist := (whist farith order hash verify u8 fl ftoa).
Notation sending := (sending farith order hash verify u8 fl ftoa).

Lemma reads_lex q p ts : reads_as u8 fl q p ts <-> lex u8 fl q p = LexOk ts.
Proof using. unfold reads_as. symmetry. apply C34_exact. Qed.

Lemma scan_width l sd cols ids objs objs' rows : scan_rows l sd cols ids objs = (objs', VOk rows) -> Forall (fun r => length r = length cols) rows.
Proof using.
  assert (RC : forall pk pkc m cs r, read_cols_all pk pkc m cs = Some r -> length r = length cs).
  { intros pk pkc m. induction cs as [|k cs IH]; intros r H; cbn [read_cols_all] in H; [injection H as <-; reflexivity|].
    repeat (match type of H with context [match ?y with _ => _ end] => let E := fresh in destruct y eqn:E end; try discriminate H); injection H as <-; cbn [length]; f_equal; auto. }
  revert objs objs' rows. induction ids as [|i ids IH]; intros objs objs' rows H; cbn [scan_rows] in H; [injection H as <- <-; constructor|].
  destruct (nth_error objs i) as [o|]; [|discriminate H]. destruct (read_cols_all _ _ _ cols) as [r|] eqn:R; [|discriminate H].
  destruct (scan_rows _ _ _ ids _) as [o2 rs] eqn:SR. destruct rs as [rs| |]; try discriminate H. injection H as <- <-. constructor; [eapply RC; exact R|eapply IH; exact SR].
Qed.

Lemma stmt_rows g i id st g' l : gstep g (GDml i id st) = Some (g', GoStmt (RoRows l)) ->
  exists nd cols n, aget ent_eqb id (g_nodes g) = Some nd /\ st = RSelectAll cols n /\ width g id st = ncols nd cols /\ Forall (fun r => N.of_nat (length r) = width g id st) l.
Proof using.
  cbn [WholeModel.gstep]. destruct (nth_error _ i); [|discriminate]. destruct (negb _); [discriminate|].
  destruct (aget ent_eqb id (g_nodes g)) as [nd|] eqn:GN; [|discriminate]. destruct (rstep farith order (nd_m nd) st) as [m r] eqn:RS. intros E. injection E as _ ->.
  exists nd. destruct st as [d|w asg|w|w cols|cols limit|ak ok]; cbn [rstep] in RS.
  - exfalso. unfold exec_insert in RS. repeat (match type of RS with context [match ?y with _ => _ end] => destruct y end); discriminate RS.
  - exfalso. unfold exec_update in RS. destruct (m_iffy (nd_m nd)); [discriminate RS|]. destruct (resolve_where _ w); [|discriminate RS].
    destruct (aget pkey_eqb _ _) as [oid|]; [|discriminate RS]. destruct (nth_error _ oid) as [o|]; [|discriminate RS].
    destruct (update_row _ _ _ _) as [m' r'] eqn:UR. unfold update_row in UR. destruct (upd_loop _ _ _ _ _ _); injection UR as <- <-; discriminate RS.
  - exfalso. unfold exec_delete in RS. repeat (match type of RS with context [match ?y with _ => _ end] => destruct y end); discriminate RS.
  - exfalso. unfold exec_select in RS. repeat (match type of RS with context [match ?y with _ => _ end] => destruct y end); discriminate RS.
  - exists cols, limit. split; [reflexivity|]. split; [reflexivity|]. unfold width, ncols. rewrite GN. split; [destruct cols; reflexivity|].
    unfold exec_select_all in RS. match type of RS with (if ?b then _ else _) = _ => destruct b end; [discriminate RS|].
    match type of RS with (let '(_, _) := ?y in _) = _ => destruct y as [objs rr] eqn:SR end. destruct rr as [rows| |]; try discriminate RS. injection RS as _ ->.
    apply scan_width in SR. revert SR. apply Forall_impl. intros r ->. destruct cols; [reflexivity|]. rewrite map_length. reflexivity.
  - exfalso. unfold exec_alter in RS. repeat (match type of RS with context [match ?y with _ => _ end] => destruct y end); discriminate RS.
Qed.

(** a data statement *)
Lemma perform_data g i se cs en gn q p ts id st : nth_error (sv_sess (g_sv g)) i = Some se -> reads_as u8 fl q p ts -> data_stmt gn cs ts id st ->
  exists g' r, gstep g (GDml i id st) = Some (g', r) /\
    ((r = GoStmt RoUb /\ perform g i cs en gn q p = PdUb) \/
     (r = GoStmt RoPanic /\ perform g i cs en gn q p = PdDead g' (Some (GDml i id st, r))) \/
     exists res rp, reply (width g id st) r = Some res /\ perform g i cs en gn q p = PdSay g' cs rp (Some (GDml i id st, r)) /\ respond rp = sent ftoa res).
Proof using.
  intros SE RA DS. apply reads_lex in RA. destruct (data_dispatch gn (se_root se) cs ts id st DS) as (rq & DP & DM).
  assert (IS : is_dml st = true) by (destruct DS; reflexivity).
  assert (PF : perform g i cs en gn q p = match gstep g (GDml i id st) with
       | Some (g', GoStmt RoUb) => PdUb
       | Some (g', GoStmt o) => match dml_resp ftoa g id st o with Some r => PdSay g' cs r (Some (GDml i id st, GoStmt o)) | None => PdDead g' (Some (GDml i id st, GoStmt o)) end
       | Some (g', GoNoModel) => PdSay g' cs (RErr 100) (Some (GDml i id st, GoNoModel))
       | _ => PdOff end).
  { unfold WireModel.perform. rewrite SE, RA, DP. destruct rq; try discriminate DM; rewrite DM; reflexivity. }
  rewrite PF. clear PF.
  assert (GS : (exists g', gstep g (GDml i id st) = Some (g', GoNoModel)) \/ exists g' o, gstep g (GDml i id st) = Some (g', GoStmt o)).
  { cbn [WholeModel.gstep]. rewrite SE, IS. cbn [negb]. destruct (aget ent_eqb id (g_nodes g)); [|eauto]. destruct (rstep _ _ _ _). eauto. }
  destruct GS as [[g' GS]|(g' & o & GS)]; rewrite GS; eexists; eexists; (split; [reflexivity|]).
  - right. right. exists (ResError 100), (RErr 100). auto.
  - destruct o as [|l|l|e| |]; auto; right; right.
    + exists ResEmpty, REmpty. auto.
    + exists (ResRow l), (select_resp ftoa l). auto.
    + destruct (stmt_rows _ _ _ _ _ _ GS) as (nd & cols & n & GN & -> & WD & _). cbn [dml_resp]. rewrite GN. exists (ResRows (width g id (RSelectAll cols n)) l). eexists. split; [reflexivity|]. split; [reflexivity|]. cbn [sent]. rewrite WD. reflexivity.
    + exists (ResError (dml_code e)), (RErr (dml_code e)). auto.
Qed.

(** a statement about spaces, models and accounts *)
Lemma perform_schema g i se cs en gn q p ts s : nth_error (sv_sess (g_sv g)) i = Some se -> reads_as u8 fl q p ts -> schema_stmt ts s ->
  (se_root se = true \/ sysctl_text ts ->
    (wants_models s = true /\ flushing g = true /\ perform g i cs en gn q p = PdOff) \/
    (exists g' o, gstep g (GDdl i en s) = Some (g', GoDdl o) /\
      ((schema_reply o = None /\ perform g i cs en gn q p = PdDead g' (Some (GDdl i en s, GoDdl o))) \/
       exists res rp, schema_reply o = Some res /\ perform g i cs en gn q p = PdSay g' cs rp (Some (GDdl i en s, GoDdl o)) /\ respond rp = sent ftoa res))) /\
  (se_root se = false -> ~ sysctl_text ts -> perform g i cs en gn q p = PdSay g cs (RErr 5) None).
Proof using.
  intros SE RA SS. apply reads_lex in RA. split.
  - intros R. pose proof (schema_dispatch gn (se_root se) cs ts s SS R) as DP. unfold WireModel.perform. rewrite SE, RA, DP.
    cbn [WholeModel.gstep]. destruct (wants_models s && flushing g) eqn:WF; [left; apply andb_true_iff in WF as [-> ->]; auto|right].
    cbn [GnsModel.step]. rewrite SE. destruct (exec_stmt _ _ _ _ _ _) as [w o]. eexists. exists o. split; [reflexivity|].
    destruct o as [|b|e|]; cbn [ddl_resp schema_reply]; auto; right; eexists; eexists; (split; [reflexivity|]); (split; [reflexivity|]); reflexivity.
  - intros RF NS. pose proof (schema_refused gn cs ts s SS NS) as DP. unfold WireModel.perform. rewrite SE, RA, RF, DP. reflexivity.
Qed.

Definition space_there (g : gst) (k : bytes) : Prop := aget bseq k (n_spaces (w_ns (sv_w (g_sv g)))) <> None.
Lemma perform_use g i se cs en gn q p r u : nth_error (sv_sess (g_sv g)) i = Some se -> reads_as u8 fl q p (kst KsUse :: r) -> wf_use r u ->
  exists cs' res rp, uses (space_there g) cs u cs' res /\ perform g i cs en gn q p = PdSay g cs' rp None /\ respond rp = sent ftoa res.
Proof using.
  intros SE RA W. apply reads_lex in RA.
  assert (X : exists u', u = use_req_of u') by (destruct u as [k| |]; [exists (UseSpace k)|exists UseCurrent|exists UseNull]; reflexivity). destruct X as [u' ->].
  assert (DP : dispatch (gn_text gn) (gn_bin gn) (gn_now gn) (se_root se) cs (kst KsUse :: r) = DReq (RqUse u')) by (apply dispatch_use; exists r; auto).
  unfold WireModel.perform. rewrite SE, RA, DP.
  assert (TH : forall k, (has_space k (w_ns (sv_w (g_sv g))) = true /\ space_there g k) \/ (has_space k (w_ns (sv_w (g_sv g))) = false /\ ~ space_there g k)).
  { intros k. unfold has_space, space_there. destruct (aget bseq k _); [left|right]; split; try reflexivity; try discriminate. intros X. apply X. reflexivity. }
  destruct u' as [k| |]; cbn [do_use c_se c_cs].
  - destruct (TH k) as [[-> T]|[-> T]]; cbn [c_se c_cs]; eexists; eexists; eexists; (split; [constructor; exact T|]); (split; [reflexivity|]); reflexivity.
  - destruct cs as [k|].
    + destruct (TH k) as [[-> T]|[-> T]]; cbn [c_se c_cs]; eexists; eexists; eexists.
      * split; [eapply us_current; [reflexivity|exact T]|]. split; reflexivity.
      * split; [eapply us_gone; [reflexivity|exact T]|]. split; reflexivity.
    + eexists; eexists; eexists. split; [apply us_none; reflexivity|]. split; reflexivity.
  - eexists; eexists; eexists. split; [apply us_null|]. split; reflexivity.
Qed.

Lemma perform_inspect g i se cs en gn q p r n : nth_error (sv_sess (g_sv g)) i = Some se -> reads_as u8 fl q p (kst KsInspect :: r) -> wf_inspect cs r (insp_req_of n) ->
  exists rp, perform g i cs en gn q p = PdSay g cs rp None /\
    respond rp = sent ftoa (match inspect_text (se_root se) (w_ns (sv_w (g_sv g))) (fun id => rows_at id g) n with Some t => ResString t | None => ResError 100 end).
Proof using.
  intros SE RA W. apply reads_lex in RA.
  assert (DP : dispatch (gn_text gn) (gn_bin gn) (gn_now gn) (se_root se) cs (kst KsInspect :: r) = DReq (RqInspect n)) by (apply dispatch_inspect; exists r; auto).
  unfold WireModel.perform. rewrite SE, RA, DP. eexists. split; [reflexivity|]. destruct (inspect_text _ _ _ n); reflexivity.
Qed.

(** a text that says nothing *)
Lemma perform_nothing g i se cs en gn q p : nth_error (sv_sess (g_sv g)) i = Some se -> (forall y, ~ says u8 fl gn cs q p y) ->
  (exists code, (code < 256)%N /\ perform g i cs en gn q p = PdSay g cs (RErr code) None) \/
  perform g i cs en gn q p = PdDead g None \/
  (perform g i cs en gn q p = PdUb /\ exists ts, reads_as u8 fl q p ts /\ sel_all_text ts).
Proof using.
  intros SE NS. unfold WireModel.perform. rewrite SE.
  destruct (lex u8 fl q p) as [ts|e|] eqn:LX; [|left; destruct e; eexists; (split; [|reflexivity]); reflexivity|destruct (lex_no_fuel u8 fl q p LX)].
  assert (RA : reads_as u8 fl q p ts) by (apply reads_lex; exact LX).
  destruct (dispatch_ends gn (se_root se) cs ts) as [NF UB].
  destruct (dispatch (gn_text gn) (gn_bin gn) (gn_now gn) (se_root se) cs ts) as [r|e| | |] eqn:DP; auto.
  - exfalso. assert (NM : forall id st, dml_of r = Some (id, st) -> False).
    { intros id st DM. eapply NS, sy_data; [exact RA|]. eapply dispatch_data; eassumption. }
    destruct r as [s|u|n|n|n|n|n|n]; try (eapply NM; reflexivity).
    + eapply NS, sy_schema; [exact RA|]. eapply dispatch_schema; exact DP.
    + apply dispatch_use in DP as (r & -> & W). eapply NS, sy_use; eassumption.
    + apply dispatch_inspect in DP as (r & -> & W). eapply NS, sy_inspect; eassumption.
  - left. exists (disp_code e). split; [|reflexivity]. destruct e as [| | |[]]; reflexivity.
  - right. right. split; [reflexivity|]. exists ts. split; [exact RA|]. apply UB. reflexivity.
  - destruct (NF eq_refl).
Qed.

(** a text says one thing at most *)
Lemma says_one gn cs q p a b : says u8 fl gn cs q p a -> says u8 fl gn cs q p b -> a = b.
Proof using.
  intros A B.
  assert (M : forall y, says u8 fl gn cs q p y -> exists ts r, lex u8 fl q p = LexOk ts /\ dispatch (gn_text gn) (gn_bin gn) (gn_now gn) true cs ts = DReq r /\
     match y with
     | SayData id st => dml_of r = Some (id, st)
     | SaySchema s => r = RqDdl s
     | SayUse u => exists u', r = RqUse u' /\ u = use_req_of u'
     | SayInspect n => exists n', r = RqInspect n' /\ n = insp_req_of n'
     end).
  { intros y Y. destruct Y as [ts id st RA D|ts s RA D|r u RA W|r n RA W]; apply reads_lex in RA.
    - destruct (data_dispatch gn true cs ts id st D) as (r & DP & DM). eauto 6.
    - pose proof (schema_dispatch gn true cs ts s D (or_introl eq_refl)) as DP. eauto 6.
    - assert (X : exists u', u = use_req_of u') by (destruct u as [k| |]; [exists (UseSpace k)|exists UseCurrent|exists UseNull]; reflexivity). destruct X as [u' ->].
      exists (kst KsUse :: r), (RqUse u'). split; [exact RA|]. split; [apply dispatch_use; eauto|eauto].
    - assert (X : exists n', n = insp_req_of n') by (destruct n as [|k|e]; [exists InGlobal|exists (InSpace k)|exists (InModel e)]; reflexivity). destruct X as [n' ->].
      exists (kst KsInspect :: r), (RqInspect n'). split; [exact RA|]. split; [apply dispatch_inspect; eauto|eauto]. }
  destruct (M a A) as (ts & r & L1 & D1 & Y1), (M b B) as (ts' & r' & L2 & D2 & Y2). assert (ts' = ts) by congruence. subst ts'. assert (r' = r) by congruence. subst r'.
  destruct a as [id st|s|u|n], b as [id' st'|s'|u'|n'];
    repeat (match goal with H : exists _, _ |- _ => destruct H as (? & ? & ->) end); subst; try discriminate; try congruence.
Qed.

(** where the sender is *)
Lemma sending_at C key salt h x j i cs l ch q p en gn : sending C key salt h x j i cs l -> completed_by l ch q p ->
  j < length (x_co x) /\ whist C key salt h x /\ (exists se, nth_error (sv_sess (g_sv (x_g x))) i = Some se) /\
  wstep x (WRecv j en gn ch) =
    match perform (x_g x) i cs en gn q p with
    | PdOff | PdUb => None
    | PdDead g' d => Some (mk_wst g' (put_nth j WcOff (x_co x)), ([], d))
    | PdSay g' cs' r d => Some (mk_wst g' (put_nth j (WcOn i cs' qc_reset) (x_co x)), (respond r, d))
    end.
Proof using.
  intros (h1 & x1 & h2 & -> & H1 & ID & H2 & NR & <-) CB.
  pose proof (wruns_app farith order hash verify u8 fl ftoa C _ _ _ _ _ H1 H2) as H.
  destruct (complete farith order hash verify u8 fl ftoa C x1 h2 x j i cs ch q p en gn ID H2 NR CB) as [LT ST]. split; [exact LT|]. split; [exact H|]. split; [|exact ST].
  destruct (quiet farith order hash verify u8 fl ftoa C x1 h2 x j i cs ID H2 NR (completed_unfinished _ _ _ _ CB)) as (c & E & _).
  eapply (on_session farith order hash verify u8 fl ftoa); eassumption.
Qed.
Lemma put_idle g x j i cs : j < length (x_co x) -> idle (mk_wst g (put_nth j (WcOn i cs qc_reset) (x_co x))) j i cs /\ others j x (mk_wst g (put_nth j (WcOn i cs qc_reset) (x_co x))).
Proof using. intros L. split; [apply put_nth_same; exact L|]. intros j' N. apply put_nth_other. exact N. Qed.
Lemma put_closed g x j : j < length (x_co x) -> closed (mk_wst g (put_nth j WcOff (x_co x))) j /\ others j x (mk_wst g (put_nth j WcOff (x_co x))).
Proof using. intros L. split; [apply put_nth_same; exact L|]. intros j' N. apply put_nth_other. exact N. Qed.
End Perform.
