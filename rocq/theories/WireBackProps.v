(** C111: the row of an acknowledged INSERT comes back on any connection. *)
From Coq Require Import Strings.String List NArith Bool Arith Lia Permutation.
From Verif Require Import Bytes AMap DataModel CodecModel NumModel NetModel NetProofs NetProps GnsModel GnsProofs GnsProps GnsHist RowModel RowSpec RowProofs RowLemmas RowUpd RowTable RowProps
  LexModel LexSpec ParseModel ParseSpec ParseSel DdlModel DdlSpec DdlAll ExecModel InspectModel BatchModel BatchProofs BatchTable BatchProps UpgradeModel
  WholeModel WholeSpec WholeProofs WholeInv WholeHist WholeProps WireModel WireSpec WireProofs WirePerform WireLogin WireProps WireBack.
Import ListNotations.
Local Open Scope nat_scope.

Section C111.
Variable farith : aop -> N -> N -> N.
Variable order : fieldmap -> fieldmap.
Variable hash : bytes -> N -> bytes.
Variable verify : bytes -> bytes -> bool.
Variable u8 : bytes -> bool.
Variable fl : bytes -> option N.
Variable ftoa : N -> bytes.
Hypothesis order_perm : forall l, Permutation (order l) l.
Notation gstep := (gstep farith order hash verify).
Notation wstep := (wstep farith order hash verify u8 fl ftoa).
Notation wruns := (wruns farith order hash verify u8 fl ftoa).
Notation sending := (sending farith order hash verify u8 fl ftoa).
Notation says := (says u8 fl).
Notation sent := (NetProps.sent ftoa).

(** the statement, its acknowledgement and the rest of the history *)
Lemma acked key salt id st h1 x1 j i cs l ch q p en gn x1' ev h2 x2 : match st with RInsert _ | RDelete _ => True | _ => False end ->
  sending (mild id) key salt h1 x1 j i cs l -> completed_by l ch q p -> says gn cs q p (SayData id st) ->
  wstep x1 (WRecv j en gn ch) = Some (x1', ([Byte.x12], ev)) -> wruns (mild id) x1' h2 x2 ->
  let h := h1 ++ (WRecv j en gn ch, ([Byte.x12], ev)) :: h2 in
  Forall no_failed_force (trace h) -> NoDup (used (trace h)) ->
  ev = Some (GDml i id st, GoStmt RoOk) /\
  exists lay, born id (trace h1) lay /\ forall k row,
    match st with RInsert d => k = ins_key lay d /\ row = Some (ins_row lay d) | RDelete w => asked lay w = Some k /\ row = None | _ => False end ->
    Forall (fun e => ~ loses id (fst e) (snd e) /\ forall i q a, e = (GDml i id q, GoStmt a) -> untouched lay k row q a) (trace h2) ->
    holds farith order id lay k row (x_g x2).
Proof using order_perm.
  intros KI SD CB SY ST R2 h FF NU. unfold h in FF, NU. clear h.
  destruct (C110_data_partial farith order hash verify u8 fl ftoa (mild id) key salt h1 x1 j i cs l ch q p en gn id st SD CB SY) as (g' & r & GS & X).
  assert (NUB : r <> GoStmt RoUb).
  { intros ->. inversion SY as [ts id0 st0 RA DS| | |]; subst.
    destruct (sending_at farith order hash verify u8 fl ftoa (mild id) key salt h1 x1 j i cs l ch q p en gn SD CB) as (LT & _ & [se SE] & ST').
    destruct (perform_data farith order hash verify u8 fl ftoa (x_g x1) i se cs en gn q p ts id st SE RA DS) as (g2 & r2 & GS2 & PF).
    rewrite GS in GS2. injection GS2 as <- <-. destruct PF as [[_ PF]|[[E _]|(res & rp & E & _)]]; [|discriminate E|discriminate E].
    rewrite PF in ST'. congruence. }
  destruct (X NUB) as (x3 & b3 & ST3 & G3 & _ & RP). rewrite ST in ST3. injection ST3 as <- <- ->. subst g'.
  assert (ROK : r = GoStmt RoOk).
  { destruct (reply (width (x_g x1) id st) r) as [res|] eqn:RE; [|destruct RP as (_ & E & _); discriminate E]. destruct RP as [E _].
    destruct r as [y|y|[]| |y| | |]; cbn [reply] in RE; try discriminate RE; injection RE as <-; cbn in E; try discriminate E; try reflexivity. }
  subst r. split; [reflexivity|].
  destruct (sending_at farith order hash verify u8 fl ftoa (mild id) key salt h1 x1 j i cs l ch q p en gn SD CB) as (_ & WH & _ & _).
  change ((WRecv j en gn ch, ([Byte.x12], Some (GDml i id st, GoStmt RoOk))) :: h2) with ([(WRecv j en gn ch, ([Byte.x12], Some (GDml i id st, GoStmt RoOk)))] ++ h2) in FF, NU.
  rewrite app_assoc in FF, NU.
  assert (T1 : trace ((h1 ++ [(WRecv j en gn ch, ([Byte.x12], Some (GDml i id st, GoStmt RoOk)))]) ++ h2) = (trace h1 ++ [(GDml i id st, GoStmt RoOk)]) ++ trace h2) by (unfold trace; rewrite !flat_map_app; reflexivity).
  assert (FF1 : Forall no_failed_force ((trace h1 ++ [(GDml i id st, GoStmt RoOk)]) ++ trace h2)) by (rewrite <- T1; exact FF). apply Forall_app in FF1 as [FF1 _]. apply Forall_app in FF1 as [FF1 _].
  assert (NU1 : NoDup (used ((trace h1 ++ [(GDml i id st, GoStmt RoOk)]) ++ trace h2))) by (rewrite <- T1; exact NU). unfold used in NU1. rewrite flat_map_app in NU1. apply nodup_left in NU1. fold (used (trace h1 ++ [(GDml i id st, GoStmt RoOk)])) in NU1.
  pose proof NU1 as NU0. rewrite used_snoc in NU0. apply nodup_left in NU0.
  destruct (hist_gentle farith order hash verify u8 fl ftoa order_perm id key salt h1 x1 WH FF1 NU0) as (GH & US & W).
  assert (GN : exists nd, aget ent_eqb id (g_nodes (x_g x1)) = Some nd).
  { cbn [WholeModel.gstep] in GS. destruct (nth_error _ i); [|discriminate GS]. destruct (negb _); [discriminate GS|]. destruct (aget ent_eqb id (g_nodes (x_g x1))) as [nd|]; [eauto|discriminate GS]. }
  destruct GN as [nd GN].
  destruct (gentle_hist farith order hash verify order_perm false id _ key salt _ _ (fun _ _ _ c => c) GH US NU0 nd GN) as (lay & hb & _ & PH & _ & BO & LO).
  exists lay. split; [exact BO|]. intros k row K UN.
  pose proof (wstep_lawful farith order hash verify u8 fl ftoa _ _ _ _ _ ST) as L. cbn beta iota in L.
  assert (MI : mild id (x_g x1) (GDml i id st) (GoStmt RoOk)) by (unfold mild; rewrite GN; destruct st; auto; destruct KI).
  refine (row_runs farith order hash verify u8 fl ftoa order_perm id key salt lay k row _ x1' _ _ h2 x2 R2 FF NU UN).
  - econstructor; [exact WH|exact ST|]. split; [exact MI|]. repeat split; discriminate.
  - exact (made_gstep farith order hash verify order_perm key salt (trace h1) (x_g x1) i (x_g x1') id nd lay hb k row st W NU1 GS (mild_gentle id _ _ _ MI L) GN LO (PH eq_refl) K).
Qed.

(** Full claim: when an INSERT has been acknowledged, every SELECT that asks for its row, on every
    connection and after every restart, shows its values, until the row is changed or removed. Proved:
    for histories with no failed write to the model's file, no ALTER MODEL of it, UPDATEs that succeed or
    are refused in the harmless way, restarts with the model's changes written, no forced DROP SPACE that
    failed, and fresh uuids. Missing: those histories. *)
Theorem C111_row_back_partial : forall key salt id d w cols h1 x1 j1 i1 cs1 l1 ch1 q1 p1 en1 gn1 x1' ev h2 x2 j2 i2 cs2 l2 ch2 q2 p2 en2 gn2,
  sending (mild id) key salt h1 x1 j1 i1 cs1 l1 -> completed_by l1 ch1 q1 p1 -> says gn1 cs1 q1 p1 (SayData id (RInsert d)) ->
  wstep x1 (WRecv j1 en1 gn1 ch1) = Some (x1', ([Byte.x12], ev)) -> wruns (mild id) x1' h2 x2 ->
  let h := h1 ++ (WRecv j1 en1 gn1 ch1, ([Byte.x12], ev)) :: h2 in
  Forall no_failed_force (trace h) -> NoDup (used (trace h)) ->
  sending (mild id) key salt h x2 j2 i2 cs2 l2 -> completed_by l2 ch2 q2 p2 -> says gn2 cs2 q2 p2 (SayData id (RSelect w cols)) ->
  exists lay, born id (trace h1) lay /\
  (Forall (keeps lay id (ins_key lay d)) (trace h2) -> asked lay w = Some (ins_key lay d) ->
   Forall (fun c => In c (map fst (lo_fields lay))) (wanted lay cols) ->
   exists x2' vals, wstep x2 (WRecv j2 en2 gn2 ch2) = Some (x2', (sent (ResRow vals), Some (GDml i2 id (RSelect w cols), GoStmt (RoRow vals)))) /\
     shows lay (key_cell (ins_key lay d)) (ins_row lay d) (wanted lay cols) vals).
Proof using order_perm.
  intros key salt id d w cols h1 x1 j1 i1 cs1 l1 ch1 q1 p1 en1 gn1 x1' ev h2 x2 j2 i2 cs2 l2 ch2 q2 p2 en2 gn2 SD1 CB1 SY1 ST1 R2 h FF NU SD2 CB2 SY2.
  destruct (acked key salt id (RInsert d) h1 x1 j1 i1 cs1 l1 ch1 q1 p1 en1 gn1 x1' ev h2 x2 Logic.I SD1 CB1 SY1 ST1 R2 FF NU) as (_ & lay & BO & HO).
  exists lay. split; [exact BO|]. intros KP AS WA.
  assert (H2 : holds farith order id lay (ins_key lay d) (Some (ins_row lay d)) (x_g x2)).
  { apply HO; [auto|]. eapply Forall_impl; [|exact KP]. intros [o r] K. cbn [fst snd]. split.
    - intros LS. unfold loses in LS. unfold keeps in K. destruct o as [u p|i en s|i x q|x|i|x v|x v|x u|i ok| |kk z]; try (destruct LS; fail).
      destruct s; try (destruct LS; fail); destruct r as [x0|x0|x0| |x0| | |]; try (destruct LS; fail); destruct x0 as [|[]| |]; try (destruct LS; fail); exact (K LS).
    - intros i q a E. injection E as -> ->. unfold untouched. unfold keeps in K. destruct q; destruct a; auto. discriminate. }
  destruct (select_holds farith order order_perm id lay _ _ (x_g x2) w cols H2 AS) as (nd & GN & SH). destruct (SH WA) as (vals & E & S1).
  destruct (C110_data_partial farith order hash verify u8 fl ftoa (mild id) key salt h x2 j2 i2 cs2 l2 ch2 q2 p2 en2 gn2 id _ SD2 CB2 SY2) as (g' & r & GS & X).
  destruct (sending_at farith order hash verify u8 fl ftoa (mild id) key salt h x2 j2 i2 cs2 l2 ch2 q2 p2 en2 gn2 SD2 CB2) as (_ & _ & [se SE] & _).
  assert (R : r = GoStmt (RoRow vals)).
  { cbn [WholeModel.gstep] in GS. rewrite SE, GN in GS. cbn [is_dml negb] in GS. destruct (rstep farith order (nd_m nd) (RSelect w cols)) as [m a]. cbn [snd] in E. subst a. injection GS as _ <-. reflexivity. }
  subst r. destruct (X ltac:(discriminate)) as (x3 & b3 & ST3 & _ & _ & RP). cbn [reply] in RP. destruct RP as [-> _]. eauto.
Qed.

(** The same for a row that was removed: until an INSERT of that key is acknowledged, every SELECT of it
    answers that there is no such row. *)
Theorem C111_removed_partial : forall key salt id w1 w cols h1 x1 j1 i1 cs1 l1 ch1 q1 p1 en1 gn1 x1' ev h2 x2 j2 i2 cs2 l2 ch2 q2 p2 en2 gn2,
  sending (mild id) key salt h1 x1 j1 i1 cs1 l1 -> completed_by l1 ch1 q1 p1 -> says gn1 cs1 q1 p1 (SayData id (RDelete w1)) ->
  wstep x1 (WRecv j1 en1 gn1 ch1) = Some (x1', ([Byte.x12], ev)) -> wruns (mild id) x1' h2 x2 ->
  let h := h1 ++ (WRecv j1 en1 gn1 ch1, ([Byte.x12], ev)) :: h2 in
  Forall no_failed_force (trace h) -> NoDup (used (trace h)) ->
  sending (mild id) key salt h x2 j2 i2 cs2 l2 -> completed_by l2 ch2 q2 p2 -> says gn2 cs2 q2 p2 (SayData id (RSelect w cols)) ->
  exists lay, born id (trace h1) lay /\
  forall k, asked lay w1 = Some k -> asked lay w = Some k -> Forall (none_made lay id k) (trace h2) ->
  exists x2', wstep x2 (WRecv j2 en2 gn2 ch2) = Some (x2', (sent (ResError 111), Some (GDml i2 id (RSelect w cols), GoStmt (RoErr ENoRow)))).
Proof using order_perm.
  intros key salt id w1 w cols h1 x1 j1 i1 cs1 l1 ch1 q1 p1 en1 gn1 x1' ev h2 x2 j2 i2 cs2 l2 ch2 q2 p2 en2 gn2 SD1 CB1 SY1 ST1 R2 h FF NU SD2 CB2 SY2.
  destruct (acked key salt id (RDelete w1) h1 x1 j1 i1 cs1 l1 ch1 q1 p1 en1 gn1 x1' ev h2 x2 Logic.I SD1 CB1 SY1 ST1 R2 FF NU) as (_ & lay & BO & HO).
  exists lay. split; [exact BO|]. intros k A1 AS KP.
  assert (H2 : holds farith order id lay k None (x_g x2)).
  { apply HO; [auto|]. eapply Forall_impl; [|exact KP]. intros [o r] K. cbn [fst snd]. split.
    - intros LS. unfold loses in LS. unfold none_made in K. destruct o as [u p|i en s|i x q|x|i|x v|x v|x u|i ok| |kk z]; try (destruct LS; fail).
      destruct s; try (destruct LS; fail); destruct r as [x0|x0|x0| |x0| | |]; try (destruct LS; fail); destruct x0 as [|[]| |]; try (destruct LS; fail); exact (K LS).
    - intros i q a E. injection E as -> ->. unfold untouched. unfold none_made in K. destruct q; destruct a; auto; intros NE; destruct (NE eq_refl). }
  destruct (select_holds farith order order_perm id lay _ _ (x_g x2) w cols H2 AS) as (nd & GN & SH).
  destruct (C110_data_partial farith order hash verify u8 fl ftoa (mild id) key salt h x2 j2 i2 cs2 l2 ch2 q2 p2 en2 gn2 id _ SD2 CB2 SY2) as (g' & r & GS & X).
  destruct (sending_at farith order hash verify u8 fl ftoa (mild id) key salt h x2 j2 i2 cs2 l2 ch2 q2 p2 en2 gn2 SD2 CB2) as (_ & _ & [se SE] & _).
  assert (R : r = GoStmt (RoErr ENoRow)).
  { cbn [WholeModel.gstep] in GS. rewrite SE, GN in GS. cbn [is_dml negb] in GS. destruct (rstep farith order (nd_m nd) (RSelect w cols)) as [m a]. cbn [snd] in SH. subst a. injection GS as _ <-. reflexivity. }
  subst r. destruct (X ltac:(discriminate)) as (x3 & b3 & ST3 & _ & _ & RP). cbn [reply] in RP. destruct RP as [-> _]. eexists. exact ST3.
Qed.
End C111.
Print Assumptions C111_row_back_partial.
Print Assumptions C111_removed_partial.

(** ** A run *)

Definition mildb (id : ent) (g : gst) (o : gop) (r : gout) : bool :=
  match aget ent_eqb id (g_nodes g) with
  | None => true
  | Some nd =>
      match o with
      | GDml _ x (RUpdate _ _) => negb (ent_eqb x id) || match r with GoStmt RoOk => true | _ => false end
      | GDdl _ _ (SAlterModel x _) => negb (ent_eqb x id) || match r with GoDdl OEmpty => false | _ => true end
      | GStep x w | GEnd x w => negb (ent_eqb x id) || match w with WoOk => true | _ => false end
      | GRestart _ _ => match m_queue (nd_m nd) with [] => true | _ => false end
      | _ => true
      end
  end.
Lemma mildb_ok id g o r : mildb id g o r = true -> mild id g o r.
Proof.
  unfold mildb, mild. destruct (aget ent_eqb id (g_nodes g)) as [nd|]; [|auto].
  assert (X : forall x b (P : Prop), (b = true -> P) -> negb (ent_eqb x id) || b = true -> x = id -> P).
  { intros x b P HP E ->. rewrite (eqb_r ent_eqb ent_eqb_eq) in E. cbn in E. auto. }
  destruct o as [u p|i en t|i x q|x|i|x w|x w|x u|i ok| |k z]; auto.
  - destruct t as [ | | | |x k| | | | | ]; auto. intros H E R. subst r. rewrite E, (eqb_r ent_eqb ent_eqb_eq) in H. discriminate H.
  - destruct q as [d|w asg|w|w cols|cols limit|ak ok]; auto; intros H F; refine (X x _ _ _ H F); intros E.
    left. destruct r as [| |[]| | | | |]; try discriminate E. reflexivity.
  - intros H F; refine (X x _ _ _ H F). destruct w; [reflexivity|intros E; discriminate E].
  - intros H F; refine (X x _ _ _ H F). destruct w; [reflexivity|intros E; discriminate E].
  - destruct (m_queue (nd_m nd)); [reflexivity|intros E; discriminate E].
Qed.
Definition bx_h (x : wst) (l : list wev) : list (wev * wout) := match vx_go x [] l with Some (h, _) => h | None => [] end.
Definition bx_x (x : wst) (l : list wev) : wst := match vx_go x [] l with Some (_, x) => x | None => x end.
Lemma bx_runs x l : vx_go x [] l <> None -> vx_all (mildb wx_i) x l = true -> vx_wruns (mild wx_i) x (bx_h x l) (bx_x x l).
Proof.
  intros N A. unfold bx_h, bx_x. destruct (vx_go x [] l) as [[h x']|] eqn:E; [|contradiction].
  eapply (vx_go_runs (mild wx_i) (mildb wx_i) (mildb_ok wx_i)); [constructor|exact E|exact A].
Qed.

(** after the INSERT: another row is inserted and one updated, everything is written, the server restarts,
    a new connection logs in, chooses the space and inserts another row *)
Definition bx_start := wstart gx_hash gx_pw 0.
Definition bx_x1 := bx_x (bx_x bx_start vx_ev1) vx_ev2.
Definition bx_x1' := bx_x bx_x1 vx_ev3.
Definition bx_ev : list wev :=
  [vx_d 1 "insert into items(?, ?)" [3; 30]%N; WBack (GBegin 0); WBack (GStep wx_i WoOk); WBack (GEnd wx_i WoOk);
   vx_d 1 "update items set n = ? where id = ?" [21; 2]%N; WBack (GTake wx_i);
   WBack (GBegin 0); WBack (GStep wx_i WoOk); WBack (GStep wx_i WoOk);  WBack (GEnd wx_i WoOk);
   WBack (GBegin 0); WBack (GStep wx_i WoOk);  WBack (GEnd wx_i WoOk); WBack (GRestart gx_pw 7);
   WConnect; vx_recv 2 0 (vx_hello ROOT gx_pw); vx_q 2 0 "use shop"; vx_d 2 "insert into items(?, ?)" [4; 40]%N].
Definition bx_x2 := bx_x bx_x1' bx_ev.
Definition bx_d : insdata := InsTuple [CQw QU64 1; CQw QU64 10].
Definition bx_lay : layout := match aget ent_eqb wx_i (g_nodes (x_g bx_x1)) with Some nd => m_lay (nd_m nd) | None => mk_layout 0 [] TsList [] end.
Definition bx_sel : bytes := packet (bstr "select n, id from items where id = ?") (vx_par [1%N]).
Notation bx_sending := (sending noarith idorder gx_hash gx_verify (fun _ => true) (fun _ => None) (fun _ => [])).
Definition bx_h1 := bx_h bx_start vx_ev1 ++ bx_h (bx_x bx_start vx_ev1) vx_ev2.
Definition bx_h3 := bx_h1 ++ (vx_recv 0 0 (skipn 16 vx_ins), ([Byte.x12], Some (GDml 0 wx_i (RInsert bx_d), GoStmt RoOk))) :: bx_h bx_x1' bx_ev.

Definition keepsb (lay : layout) (id : ent) (k : pkey) (x : gop * gout) : bool :=
  match x with
  | (GDml _ i (RUpdate w _), GoStmt RoOk) | (GDml _ i (RDelete w), GoStmt RoOk) => negb (ent_eqb i id) || match asked lay w with Some k' => negb (pkey_eqb k' k) | None => true end
  | (GDdl _ _ (SDropModel i _ _), GoDdl (OEmpty | OBool true)) => negb (ent_eqb i id)
  | (GDdl _ _ (SDropSpace s _ _), GoDdl (OEmpty | OBool true)) => negb (bseq s (fst id))
  | _ => true
  end.
Lemma keepsb_ok lay id k x : keepsb lay id k x = true -> keeps lay id k x.
Proof.
  assert (W : forall i w, negb (ent_eqb i id) || match asked lay w with Some k' => negb (pkey_eqb k' k) | None => true end = true -> i = id -> asked lay w <> Some k).
  { intros i w E -> A. rewrite (eqb_r ent_eqb ent_eqb_eq), A, (eqb_r pkey_eqb pkey_eqb_eq) in E. discriminate E. }
  assert (M : forall i, negb (ent_eqb i id) = true -> i <> id) by (intros i E ->; rewrite (eqb_r ent_eqb ent_eqb_eq) in E; discriminate E).
  assert (S : forall i, negb (bseq i (fst id)) = true -> i <> fst id) by (intros i E ->; rewrite bseq_refl in E; discriminate E).
  destruct x as [o r]. unfold keepsb, keeps. destruct o as [u p|i en s|i x q|x|i|x v|x v|x u|i ok| |kk z]; auto.
  - destruct s; auto; destruct r as [x0|x0|x0| |x0| | |]; auto; destruct x0 as [|[]| |]; auto; first [apply M|apply S].
  - destruct q; auto; destruct r as [x0|x0|x0| |x0| | |]; auto; destruct x0; auto; apply W.
Qed.
Definition forceb (x : gop * gout) : bool := match x with (GDdl _ _ (SDropSpace _ true _), GoDdl (OErr ErrServer)) => false | _ => true end.
Lemma forceb_ok x : forceb x = true -> no_failed_force x.
Proof. destruct x as [o r]. unfold forceb, no_failed_force. destruct o as [ |i en s| | | | | | | | | ]; auto. destruct s as [ | |n f e| | | | | | | ]; auto. destruct f; auto. destruct r as [|x0| | | | | |]; auto. destruct x0 as [| |[]|]; auto; discriminate. Qed.
Lemma all_ok {A} (b : A -> bool) (P : A -> Prop) l : (forall a, b a = true -> P a) -> forallb b l = true -> Forall P l.
Proof. intros H E. apply Forall_forall. intros a I. apply H. rewrite forallb_forall in E. auto. Qed.

Lemma bx_first : bx_sending (mild wx_i) gx_pw 0 bx_h1 bx_x1 0 0 (Some gx_s) [firstn 4 vx_ins; firstn 12 (skipn 4 vx_ins)].
Proof.
  exists (bx_h bx_start vx_ev1), (bx_x bx_start vx_ev1), (bx_h (bx_x bx_start vx_ev1) vx_ev2). split; [reflexivity|].
  split; [apply bx_runs; [vm_compute; discriminate|vm_compute; reflexivity]|]. split; [vm_compute; reflexivity|].
  split; [apply bx_runs; [vm_compute; discriminate|vm_compute; reflexivity]|].
  split; [|vm_compute; reflexivity]. apply (all_ok (fun e => match fst e with WBack (GRestart _ _) => false | _ => true end)); [|vm_compute; reflexivity].
  intros [e o] E. cbn [fst] in E. cbn [restarted]. destruct e as [| |[]]; auto. discriminate E.
Qed.
Lemma bx_second : bx_sending (mild wx_i) gx_pw 0 bx_h3 bx_x2 2 0 (Some gx_s) [].
Proof.
  exists bx_h3, bx_x2, []. split; [rewrite app_nil_r; reflexivity|]. split; [|split; [vm_compute; reflexivity|split; [constructor|split; [constructor|reflexivity]]]].
  unfold bx_h3. eapply wruns_app; [|].
  { unfold bx_h1. eapply wruns_app; apply bx_runs; [vm_compute; discriminate|vm_compute; reflexivity|vm_compute; discriminate|vm_compute; reflexivity]. }
  change (?a :: ?l) with ([a] ++ l). eapply wruns_app; [|apply bx_runs; [vm_compute; discriminate|vm_compute; reflexivity]].
  assert (E : bx_h bx_x1 vx_ev3 = [(vx_recv 0 0 (skipn 16 vx_ins), ([Byte.x12], Some (GDml 0 wx_i (RInsert bx_d), GoStmt RoOk)))]) by (vm_compute; reflexivity).
  rewrite <- E. apply bx_runs; [vm_compute; discriminate|vm_compute; reflexivity].
Qed.
Example C111_example :
  completed_by [firstn 4 vx_ins; firstn 12 (skipn 4 vx_ins)] (skipn 16 vx_ins) (bstr "insert into items(?, ?)") (vx_par [1; 10]%N) /\
  says (fun _ => true) (fun _ => None) vx_gn (Some gx_s) (bstr "insert into items(?, ?)") (vx_par [1; 10]%N) (SayData wx_i (RInsert bx_d)) /\
  vx_step bx_x1 (vx_recv 0 0 (skipn 16 vx_ins)) = Some (bx_x1', ([Byte.x12], Some (GDml 0 wx_i (RInsert bx_d), GoStmt RoOk))) /\
  vx_wruns (mild wx_i) bx_x1' (bx_h bx_x1' bx_ev) bx_x2 /\
  Forall no_failed_force (trace bx_h3) /\ NoDup (used (trace bx_h3)) /\
  completed_by [] bx_sel (bstr "select n, id from items where id = ?") (vx_par [1%N]) /\
  says (fun _ => true) (fun _ => None) vx_gn (Some gx_s) (bstr "select n, id from items where id = ?") (vx_par [1%N])
    (SayData wx_i (RSelect [(bstr "id", (OpEq, LUInt 1))] (Some [bstr "n"; bstr "id"]))) /\
  Forall (keeps bx_lay wx_i (ins_key bx_lay bx_d)) (trace (bx_h bx_x1' bx_ev)) /\ asked bx_lay [(bstr "id", (OpEq, LUInt 1))] = Some (ins_key bx_lay bx_d) /\
  option_map (fun y => (client_response (fst (snd y)), snd (snd y))) (vx_step bx_x2 (vx_recv 2 0 bx_sel)) =
    Some (Some (WRow [VUInt 2 10; VUInt 5 1], []), Some (GDml 0 wx_i (RSelect [(bstr "id", (OpEq, LUInt 1))] (Some [bstr "n"; bstr "id"])), GoStmt (RoRow [CQw QU8 10; CQw QU64 1]))).
Proof.
  split; [exists vx_ins; split; [apply packet_is_packet; vm_compute; reflexivity|]; split; [vm_compute; reflexivity|]; split; [repeat constructor; vm_compute; discriminate|]; split; [vm_compute; discriminate|]; vm_compute; reflexivity|].
  split; [apply (vx_says vx_gn (Some gx_s) true); vm_compute; reflexivity|].
  split; [vm_compute; reflexivity|].
  split; [apply bx_runs; [vm_compute; discriminate|vm_compute; reflexivity]|].
  split; [apply (all_ok forceb _ _ forceb_ok); vm_compute; reflexivity|].
  split; [assert (E : used (trace bx_h3) = [11; 12]%N) by (vm_compute; reflexivity); rewrite E; repeat constructor; cbn; intuition discriminate|].
  split; [exists bx_sel; split; [apply packet_is_packet; vm_compute; reflexivity|]; split; [vm_compute; reflexivity|]; split; [constructor|]; split; [vm_compute; discriminate|]; vm_compute; reflexivity|].
  split; [apply (vx_says vx_gn (Some gx_s) true); vm_compute; reflexivity|].
  split; [apply (all_ok _ _ _ (keepsb_ok _ _ _)); vm_compute; reflexivity|].
  split; [vm_compute; reflexivity|].
  vm_compute. reflexivity.
Qed.

(** then the row is removed, and a SELECT of it says that it is not there *)
Definition bx_del : bytes := packet (bstr "delete from items where id = ?") (vx_par [1%N]).
Definition bx_x4 := bx_x bx_x2 [vx_recv 2 0 bx_del].
Definition bx_ev4 : list wev := [vx_d 2 "insert into items(?, ?)" [5; 50]%N].
Definition bx_w : where_ := [(bstr "id", (OpEq, LUInt 1))].
Definition none_madeb (lay : layout) (id : ent) (k : pkey) (x : gop * gout) : bool :=
  match x with
  | (GDml _ i (RInsert d), GoStmt RoOk) => negb (ent_eqb i id) || negb (pkey_eqb (ins_key lay d) k)
  | (GDdl _ _ _, _) => false
  | _ => true
  end.
Lemma none_madeb_ok lay id k x : none_madeb lay id k x = true -> none_made lay id k x.
Proof.
  destruct x as [o r]. unfold none_madeb, none_made. destruct o as [u p|i en s|i x q|x|i|x v|x v|x u|i ok| |kk z]; auto; [intros E; discriminate E|].
  destruct q; auto; destruct r as [x0|x0|x0| |x0| | |]; auto; destruct x0; auto. intros E -> F. rewrite (eqb_r ent_eqb ent_eqb_eq), F, (eqb_r pkey_eqb pkey_eqb_eq) in E. discriminate E.
Qed.
Definition bx_h5 := bx_h3 ++ (vx_recv 2 0 bx_del, ([Byte.x12], Some (GDml 0 wx_i (RDelete bx_w), GoStmt RoOk))) :: bx_h bx_x4 bx_ev4.
Example C111_example_removed : bx_sending (mild wx_i) gx_pw 0 bx_h3 bx_x2 2 0 (Some gx_s) [] /\
  completed_by [] bx_del (bstr "delete from items where id = ?") (vx_par [1%N]) /\
  says (fun _ => true) (fun _ => None) vx_gn (Some gx_s) (bstr "delete from items where id = ?") (vx_par [1%N]) (SayData wx_i (RDelete bx_w)) /\
  vx_step bx_x2 (vx_recv 2 0 bx_del) = Some (bx_x4, ([Byte.x12], Some (GDml 0 wx_i (RDelete bx_w), GoStmt RoOk))) /\
  vx_wruns (mild wx_i) bx_x4 (bx_h bx_x4 bx_ev4) (bx_x bx_x4 bx_ev4) /\
  Forall no_failed_force (trace bx_h5) /\ NoDup (used (trace bx_h5)) /\
  asked bx_lay bx_w = Some (ins_key bx_lay bx_d) /\ Forall (none_made bx_lay wx_i (ins_key bx_lay bx_d)) (trace (bx_h bx_x4 bx_ev4)) /\
  option_map (fun y => snd y) (vx_step (bx_x bx_x4 bx_ev4) (vx_recv 2 0 bx_sel)) =
    Some (sent (fun _ => []) (ResError 111), Some (GDml 0 wx_i (RSelect bx_w (Some [bstr "n"; bstr "id"])), GoStmt (RoErr ENoRow))).
Proof.
  split; [exact bx_second|].
  split; [exists bx_del; split; [apply packet_is_packet; vm_compute; reflexivity|]; split; [vm_compute; reflexivity|]; split; [constructor|]; split; [vm_compute; discriminate|]; vm_compute; reflexivity|].
  split; [apply (vx_says vx_gn (Some gx_s) true); vm_compute; reflexivity|].
  split; [vm_compute; reflexivity|].
  split; [apply bx_runs; [vm_compute; discriminate|vm_compute; reflexivity]|].
  split; [apply (all_ok forceb _ _ forceb_ok); vm_compute; reflexivity|].
  split; [assert (E : used (trace bx_h5) = [11; 12]%N) by (vm_compute; reflexivity); rewrite E; repeat constructor; cbn; intuition discriminate|].
  split; [vm_compute; reflexivity|].
  split; [apply (all_ok _ _ _ (none_madeb_ok _ _ _)); vm_compute; reflexivity|].
  vm_compute. reflexivity.
Qed.
