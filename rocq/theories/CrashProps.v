(** C114: what a shutdown with unwritten changes leaves of a row. *)
From Coq Require Import Strings.String List NArith Bool Arith Lia Permutation.
From Verif Require Import Bytes AMap DataModel CodecModel GnsCodecModel DictModel GnsModel GnsProofs GnsHist GnsProps RowModel RowSpec RowProofs RowTable RowUpd RowAlter RowProps
  BatchModel BatchProofs BatchTable BatchProps BatchCrash UpgradeModel UpgradeSteps WholeModel WholeSpec WholeProofs WholeSteps WholeInv WholeDdl WholeHist WholeFrame WholeProps WireModel WireSpec WireBack.
Import ListNotations.
Local Open Scope N_scope.

Lemma calm_from_fun farith order s0 h s : calm_from farith order s0 h s -> forall s', calm_from farith order s0 h s' -> s = s'.
Proof.
  induction 1 as [|h s o s1 r H IH HS C N1 N2]; intros s' H'.
  - remember [] as l eqn:E. destruct H' as [|h s o s1 r H HS C N1 N2]; [reflexivity|]. destruct h; discriminate E.
  - remember (h ++ [(o, r)]) as l eqn:E. destruct H' as [|h' s'' o' s1' r' H' HS' C' N1' N2']; [destruct h; discriminate E|].
    apply app_inj_tail in E as [-> E]. injection E as -> ->. rewrite (IH _ H') in HS. congruence.
Qed.
Lemma calm_from_app farith order s0 h1 s1 : calm_from farith order s0 h1 s1 -> forall h2 s2, calm_from farith order s1 h2 s2 -> calm_from farith order s0 (h1 ++ h2) s2.
Proof. intros H1 h2 s2 H2. induction H2; [rewrite app_nil_r; exact H1|]. rewrite app_assoc. econstructor; eauto. Qed.
Lemma calm_hist_app farith order lay h1 s1 : calm_hist farith order lay h1 s1 -> forall h2 s2, calm_from farith order s1 h2 s2 -> calm_hist farith order lay (h1 ++ h2) s2.
Proof. intros H1 h2 s2 H2. induction H2; [rewrite app_nil_r; exact H1|]. rewrite app_assoc. econstructor; eauto. Qed.
Lemma plain_from_split farith order s0 h s : plain_from farith order s0 h s -> forall h1 h2, h = h1 ++ h2 ->
  exists sm, plain_from farith order s0 h1 sm.
Proof.
  induction 1 as [|h s o s' r H IH HS C K N1 N2]; intros h1 h2 E.
  - destruct h1; [|discriminate E]. exists s0. constructor.
  - destruct h2 as [|x h2] using rev_ind.
    + rewrite app_nil_r in E. subst h1. exists s'. econstructor; eauto.
    + rewrite app_assoc in E. apply app_inj_tail in E as [-> _]. eapply IH. reflexivity.
Qed.
Lemma plain_hist_app farith order lay h1 s1 : plain_hist farith order lay h1 s1 -> forall h2 s2, plain_from farith order s1 h2 s2 -> plain_hist farith order lay (h1 ++ h2) s2.
Proof. intros H1 h2 s2 H2. induction H2; [rewrite app_nil_r; exact H1|]. rewrite app_assoc. econstructor; eauto. Qed.
Lemma plain_no_alters farith order s0 h s : plain_from farith order s0 h s -> Forall (fun e => match fst e with BStmt (RAlter _ _) => False | _ => True end) h.
Proof.
  induction 1 as [|h s o s' r H IH HS C K N1 N2]; [constructor|]. apply Forall_app. split; [exact IH|]. constructor; [|constructor].
  cbn [fst]. destruct o as [[]| | | | | |]; auto.
Qed.

(** Full claim: whenever the server is shut down with changes unwritten (C95; after a kill the files are
    refused, C07 and C72), each row comes back as it was at some moment not before the last one at which all
    changes of its key were written. Proved: for histories without failed writes and without ALTER MODEL,
    UPDATEs that succeed or are refused in the harmless way, and a shutdown between two flushes: reload
    succeeds, and for each key the SELECTs answer as they did at one moment since then.
    Missing: those histories. *)
Theorem C114_row_partial : forall farith order, (forall l, Permutation (order l) l) ->
  forall lay h1 s1 k h2 s2, lay_ok lay -> calm_hist farith order lay h1 s1 -> ~ queued s1 k -> calm_from farith order s1 h2 s2 ->
  Forall (fun e => match fst e with BStmt (RAlter _ _) => False | _ => True end) (h1 ++ h2) -> b_fl s2 = None ->
  exists s3, bstep farith order s2 BRestart = (s3, BoDone) /\
  exists a b sm, h2 = a ++ b /\ calm_from farith order s1 a sm /\ calm_from farith order sm b s2 /\
    forall w cols, asked lay w = Some k ->
      snd (rstep farith order (b_m s3) (RSelect w cols)) = snd (rstep farith order (b_m sm) (RSelect w cols)).
Proof.
  intros farith order OP lay h1 s1 k h2 s2 LO H1 NQ H2 NA NF. pose proof NA as NA0. apply Forall_app in NA as [NA1 NA2].
  destruct (calm_inv farith order OP lay h1 s1 LO H1) as [B1 K1]. destruct (calm_from_inv farith order OP _ _ _ B1 K1 H2) as [B2 K2].
  destruct (restart_ok farith order s2 B2 NF) as (m & E & L & SD & Q & QS & IF & R & V & FU & _).
  destruct (crash_past farith order OP k s1 h2 s2 B1 K1 NQ H2 NA2) as (a & b & sm & -> & PA & PB & VE).
  apply Forall_app in NA2 as [NA2 NA3]. eexists. split; [exact E|]. exists a, b, sm. split; [reflexivity|]. split; [exact PA|]. split; [exact PB|].
  intros w cols AS. cbn [b_m].
  destruct (plain_no_alter farith order OP _ _ _ LO (calm_hist_app _ _ _ _ _ H1 _ _ PA) (proj2 (Forall_app _ _ _) (conj NA1 NA2))) as [SDM LM].
  destruct (plain_no_alter farith order OP _ _ _ LO (calm_hist_app _ _ _ _ _ H1 _ _ H2) NA0) as [SD2 L2].
  destruct (calm_from_inv farith order OP _ _ _ B1 K1 PA) as [BM _].
  apply (select_ext farith order (b_m sm) m w cols k); try congruence.
  - apply (ri_g _ _ (bi_r _ BM)).
  - apply (ri_g _ _ R).
  - apply (view_rows _ _ _ _ k (bi_r _ BM) R); [apply (bi_full _ BM SDM)|apply FU; exact SD2|congruence|].
    rewrite V, <- VE. unfold written, flying. rewrite NF, app_nil_r. reflexivity.
Qed.
Print Assumptions C114_row_partial.

(** a removal is written, the INSERT that follows is not; the row comes back as it was in between *)
Definition cx_pre : list bop := [w_ins 1 10; w_ins 2 20] ++ flush_all 2.
Definition cx_mid : list bop := [w_upd 2 21; w_upd 1 11; w_del 1; BTake; w_ins 1 12; w_upd 2 22; BBegin 0; BStep WoOk; BStep WoOk; BStep WoOk; BEnd WoOk; w_upd 1 13].
Example C114_row_example :
  let s1 := final ex_lay plainb cx_pre in let s2 := final ex_lay plainb (cx_pre ++ cx_mid) in
  let s3 := fst (bstep noarith idorder s2 BRestart) in
  crun plainb (bst_new ex_lay) [] (cx_pre ++ cx_mid) <> None /\ m_queue (b_m s1) = [] /\ b_fl s2 = None /\
  map (fun k => (sel s1 k, sel s2 k, sel s3 k)) [1; 2] =
    [(RoRow [CQw QU8 10], RoRow [CQw QU8 13], RoErr ENoRow); (RoRow [CQw QU8 20], RoRow [CQw QU8 22], RoRow [CQw QU8 20])].
Proof. cbv zeta. split; [vm_compute; discriminate|]. vm_all. Qed.

(** Each row is as at some moment, but not all rows as at the same one: an INSERT whose row was updated
    before the flush is passed over until the flush of the UPDATE. A row that was inserted later is there
    after the restart, and the one inserted before it is not, though never at any moment was the second there
    without the first. *)
Theorem C114_one_moment_refuted : exists h s s',
  calm_hist noarith idorder ex_lay h s /\ b_fl s = None /\ bstep noarith idorder s BRestart = (s', BoDone) /\
  sel s' 1 = RoErr ENoRow /\ sel s' 2 = RoRow [CQw QU8 20] /\
  forall a b sm, h = a ++ b -> calm_hist noarith idorder ex_lay a sm -> ~ (sel sm 1 = RoErr ENoRow /\ sel sm 2 = RoRow [CQw QU8 20]).
Proof.
  pose (ops := [w_ins 1 10; w_ins 2 20; BTake; w_upd 1 11; BBegin 0; BStep WoOk; BStep WoOk; BEnd WoOk]).
  exists (outs ex_lay calmb ops), (final ex_lay calmb ops), (fst (bstep noarith idorder (final ex_lay calmb ops) BRestart)).
  assert (E : crun calmb (bst_new ex_lay) [] ops = Some (final ex_lay calmb ops, outs ex_lay calmb ops)) by (vm_compute; reflexivity).
  split; [eapply crun_calm; [|exact E]; constructor|]. split; [vm_compute; reflexivity|]. split; [vm_compute; reflexivity|].
  split; [vm_compute; reflexivity|]. split; [vm_compute; reflexivity|].
  intros a b sm EH HA [X1 X2].
  assert (R : forall l h s, calm_hist noarith idorder ex_lay h s -> map fst h = l -> s = fst (brun noarith idorder (bst_new ex_lay) l)).
  { clear. intros l h s H. revert l. induction H as [|h s o s' r H IH HS C N1 N2]; intros l <-; [reflexivity|].
    rewrite map_app. cbn [map fst]. rewrite (brun_app noarith idorder). cbn [fst]. rewrite <- (IH _ eq_refl). cbn [brun]. rewrite HS. reflexivity. }
  pose proof (R (map fst a) a sm HA eq_refl) as ->. clear R HA E.
  assert (EO : map fst a = firstn (List.length (map fst a)) ops).
  { assert (M : map fst (outs ex_lay calmb ops) = ops) by (vm_compute; reflexivity). rewrite EH, map_app in M. rewrite <- M, firstn_app, Nat.sub_diag, firstn_all. cbn [firstn]. rewrite app_nil_r. reflexivity. }
  rewrite EO in X1, X2. assert (LE : (List.length (map fst a) <= 8)%nat).
  { rewrite map_length. apply (f_equal (@List.length _)) in EH. rewrite app_length in EH. assert (L8 : List.length (outs ex_lay calmb ops) = 8%nat) by (vm_compute; reflexivity). lia. }
  revert X1 X2 LE. generalize (List.length (map fst a)). clear. intros n X1 X2 LE.
  do 9 (destruct n as [|n]; [first [vm_compute in X1; discriminate X1|vm_compute in X2; discriminate X2]|]). lia.
Qed.
Print Assumptions C114_one_moment_refuted.

(** ** The whole server *)

(** events one after the other, from a state *)
Inductive gfrom farith order hash verify (C : gst -> gop -> gout -> Prop) (g0 : gst) : list (gop * gout) -> gst -> Prop :=
| gf_nil : gfrom farith order hash verify C g0 [] g0
| gf_snoc h g o g' r : gfrom farith order hash verify C g0 h g -> gstep farith order hash verify g o = Some (g', r) -> C g o r ->
    r <> GoFlush BoUb -> r <> GoFlush BoPanic -> r <> GoStmt RoUb -> gfrom farith order hash verify C g0 (h ++ [(o, r)]) g'.

Section Server.
Variable farith : aop -> N -> N -> N.
Variable order : fieldmap -> fieldmap.
Variable hash : bytes -> N -> bytes.
Variable verify : bytes -> bytes -> bool.
Hypothesis order_perm : forall l, Permutation (order l) l.
Notation gstep := (gstep farith order hash verify).
Notation gfrom := (gfrom farith order hash verify).

Lemma ghist_from C key salt h1 g1 : ghist farith order hash verify C key salt h1 g1 -> forall h2 g2, gfrom C g1 h2 g2 -> ghist farith order hash verify C key salt (h1 ++ h2) g2.
Proof using. intros H1 h2 g2 H2. induction H2; [rewrite app_nil_r; exact H1|]. rewrite app_assoc. econstructor; eauto. Qed.

(** the part of the history of one model that lies between two moments *)
Lemma model_from id key salt h1 g1 nd1 : ghist farith order hash verify (gentle false id) key salt h1 g1 -> aget ent_eqb id (g_nodes g1) = Some nd1 ->
  forall h2 g2, gfrom (gentle false id) g1 h2 g2 -> Forall usual (h1 ++ h2) -> NoDup (used (h1 ++ h2)) -> Forall (fun e => ~ loses id (fst e) (snd e)) h2 ->
  exists nd2 hb, aget ent_eqb id (g_nodes g2) = Some nd2 /\ plain_from farith order (gview g1 id nd1) hb (gview g2 id nd2) /\
    own id (h1 ++ h2) = own id h1 ++ stmts hb /\ forall a b, hb = a ++ b -> exists a' b', h2 = a' ++ b' /\ own id (h1 ++ a') = own id h1 ++ stmts a.
Proof using order_perm.
  intros H1 GN1 h2 g2 H2. induction H2 as [|h2 g o g' r H2 IH HS CG N1 N2 N3]; intros US NU NL.
  { exists nd1, []. split; [exact GN1|]. split; [constructor|]. split; [rewrite !app_nil_r; reflexivity|]. intros a b E. destruct a; [|discriminate E]. exists [], []. split; [reflexivity|]. rewrite !app_nil_r. reflexivity. }
  rewrite app_assoc in US, NU. pose proof US as US0. apply Forall_app in US as [U1 U2]. inversion U2; subst.
  pose proof NU as NU0. rewrite used_snoc in NU0. apply nodup_left in NU0. apply Forall_app in NL as [NL1 NL2]. inversion NL2 as [|? ? NL3 _]; subst. cbn [fst snd] in NL3.
  destruct (IH U1 NU0 NL1) as (nd & hb & GN & PF & O2 & PX).
  pose proof (ghist_whole farith order hash verify order_perm _ key salt _ _ (ghist_from _ _ _ _ _ H1 _ _ H2) U1 NU0) as W.
  match goal with U : usual (o, r) |- _ => rename U into UO end.
  destruct (node_stays farith order hash verify order_perm key salt _ g o g' r id nd W UO NU HS) as [nd' GN']; [|exact GN|].
  { revert NL3. unfold loses. destruct o as [u p|i en s|i x q|x|i|x w|x w|x u|i ok| |kk z]; auto. destruct s; auto; destruct r as [x1|x1|x1| |x1| | |]; auto; destruct x1 as [|[]| |]; auto. }
  destruct (whole_step farith order hash verify order_perm key salt _ g o g' r W UO NU HS) as [_ TR]. specialize (TR id). unfold trans in TR. rewrite GN, GN' in TR.
  destruct TR as [_ [[V NO]|(bo & br & IN & BS)]].
  - exists nd', hb. split; [exact GN'|]. rewrite V. split; [exact PF|]. split; [rewrite app_assoc; unfold own; rewrite fold_left_app; cbn [fold_left]; fold (own id (h1 ++ h2)); rewrite NO; exact O2|]. intros a b E. destruct (PX a b E) as (a' & b' & -> & O). exists a', (b' ++ [(o, r)]). rewrite app_assoc. auto.
  - destruct (gentle_calm farith order hash verify false id g o r g' nd bo br CG HS GN IN) as [CA PL].
    destruct (induced_out farith order id _ _ _ _ _ _ IN BS N1 N2 N3) as (X1 & X2 & X3).
    assert (PL' : match bo with BStmt (RAlter _ _) => False | BRestart => m_queue (nd_m nd) = [] | _ => True end) by (destruct bo as [[]| | | | | |]; auto; discriminate PL).
    assert (O3 : own id (h1 ++ h2 ++ [(o, r)]) = own id h1 ++ stmts (hb ++ [(bo, br)])).
    { rewrite app_assoc. unfold own. rewrite fold_left_app. cbn [fold_left]. fold (own id (h1 ++ h2)). rewrite (own_induced id _ _ _ _ _ IN), O2, stmts_app, app_assoc. reflexivity. }
    exists nd', (hb ++ [(bo, br)]). split; [exact GN'|]. split; [econstructor; eauto|]. split; [exact O3|]. intros a b E. apply snoc_split in E as [[-> ->]|(q3 & -> & E3)].
    + exists (h2 ++ [(o, r)]), []. split; [rewrite app_nil_r; reflexivity|exact O3].
    + destruct (PX a q3 E3) as (a' & b' & -> & O). exists a', (b' ++ [(o, r)]). rewrite app_assoc. auto.
Qed.

(** The same for the whole server: for each key whose changes were all written at some moment, a SELECT
    after the restart answers from the table of the acknowledged statements up to that moment and some of
    those after it. *)
Theorem C114_server_partial : forall id key salt h1 g1 nd1 h2 g2 key' salt' g3,
  ghist farith order hash verify (gentle false id) key salt h1 g1 -> aget ent_eqb id (g_nodes g1) = Some nd1 ->
  gfrom (gentle false id) g1 h2 g2 -> Forall usual (h1 ++ h2) -> NoDup (used (h1 ++ h2)) -> Forall (fun e => ~ loses id (fst e) (snd e)) h2 ->
  gstep g2 (GRestart key' salt') = Some (g3, GoDone) ->
  exists lay nd3, born id h1 lay /\ aget ent_eqb id (g_nodes g3) = Some nd3 /\
  forall k, ~ queued (gview g1 id nd1) k -> exists a b, h2 = a ++ b /\
    let T := table_of (fun m asg => fst (update_row farith (lo_fields lay) m asg)) lay (own id (h1 ++ a)) in
    orow_eq (rows_of (nd_m nd3) k) (T k) /\
    forall w cols, asked lay w = Some k ->
      match T k with
      | None => snd (rstep farith order (nd_m nd3) (RSelect w cols)) = RoErr ENoRow
      | Some m => Forall (fun c => In c (map fst (lo_fields lay))) (wanted lay cols) ->
          exists vals, snd (rstep farith order (nd_m nd3) (RSelect w cols)) = RoRow vals /\ shows lay (key_cell k) m (wanted lay cols) vals
      end.
Proof using order_perm.
  intros id key salt h1 g1 nd1 h2 g2 key' salt' g3 H1 GN1 H2 US NU NL HR.
  destruct (model_from id key salt h1 g1 nd1 H1 GN1 h2 g2 H2 US NU NL) as (nd2 & hb & GN2 & PF & _ & PX).
  pose proof US as US1. apply Forall_app in US1 as [US1 _]. pose proof NU as NU1. unfold used in NU1. rewrite flat_map_app in NU1. apply nodup_left in NU1. fold (used h1) in NU1.
  destruct (gentle_hist farith order hash verify order_perm false id _ key salt h1 g1 (fun _ _ _ c => c) H1 US1 NU1 nd1 GN1) as (lay & hb1 & _ & PH & S1 & BO & LO).
  specialize (PH eq_refl). pose proof (ghist_whole farith order hash verify order_perm _ key salt _ _ (ghist_from _ _ _ _ _ H1 _ _ H2) US NU) as W.
  assert (NUR : NoDup (used ((h1 ++ h2) ++ [(GRestart key' salt', GoDone)]))) by (rewrite used_snoc; cbn [used1]; rewrite app_nil_r; exact NU).
  assert (US3 : usual (GRestart key' salt', GoDone)) by exact Logic.I.
  destruct (node_stays farith order hash verify order_perm key salt _ g2 _ g3 _ id nd2 W US3 NUR HR Logic.I GN2) as [nd3 GN3].
  destruct (whole_step farith order hash verify order_perm key salt _ g2 _ g3 _ W US3 NUR HR) as [_ TR]. specialize (TR id). unfold trans in TR. rewrite GN2, GN3 in TR.
  exists lay, nd3. split; [exact BO|]. split; [exact GN3|]. intros k NQ.
  destruct (calm_inv farith order order_perm lay hb1 _ LO (plain_calm _ _ _ _ _ PH)) as [B1 K1].
  pose proof (plain_from_calm farith order _ _ _ PF) as CF. destruct (calm_from_inv farith order order_perm _ _ _ B1 K1 CF) as [B2 K2].
  pose proof (plain_hist_app _ _ _ _ _ PH _ _ PF) as PH2. destruct (plain_table farith order order_perm lay _ _ LO PH2) as (_ & L2 & SD2 & _).
  assert (X : exists a0 b0 sm t, hb = a0 ++ b0 /\ plain_from farith order (gview g1 id nd1) a0 sm /\
    rinv (nd_m nd3) t /\ full (nd_m nd3) /\ m_lay (nd_m nd3) = lay /\ m_sd (nd_m nd3) = [] /\ view (nd_m nd3) k = view (b_m sm) k).
  { destruct TR as (_ & [[E1 _]|(bo & br & [-> ->] & BS)]).
    - apply (f_equal b_m) in E1. cbn [b_m gview bare] in E1. exists hb, [], (gview g2 id nd2), (m_dver (nd_m nd2)). rewrite E1. split; [rewrite app_nil_r; reflexivity|].
      split; [exact PF|]. split; [exact (bi_r _ B2)|]. split; [apply (bi_full _ B2); exact SD2|]. split; [exact L2|]. split; [exact SD2|reflexivity].
    - destruct (b_fl (gview g2 id nd2)) eqn:NF; [cbn [bstep] in BS; rewrite NF in BS; discriminate BS|].
      destruct (restart_ok farith order _ B2 NF) as (m & E & L & SD & Q & QS & IF & R & V & FU & _). rewrite E in BS. apply pair_equal_spec in BS as [BS _]. apply (f_equal b_m) in BS. cbn [b_m gview bare] in BS. subst m.
      destruct (crash_past farith order order_perm k _ hb _ B1 K1 NQ CF (plain_no_alters _ _ _ _ _ PF)) as (a0 & b0 & sm & EH & PA & PB & VE).
      destruct (plain_from_split farith order _ _ _ PF a0 b0 EH) as [sm' PM]. pose proof (calm_from_fun _ _ _ _ _ PA _ (plain_from_calm farith order _ _ _ PM)) as <-.
      exists a0, b0, sm. eexists. split; [exact EH|]. split; [exact PM|]. split; [exact R|]. split; [apply FU; exact SD2|]. split; [congruence|]. split; [congruence|].
      rewrite V, <- VE. unfold written, flying. rewrite NF, app_nil_r. reflexivity. }
  destruct X as (a0 & b0 & sm & t & EH & PM & R3 & F3 & L3 & SD3 & V3).
  destruct (PX a0 b0 EH) as (a & b & E2 & O). exists a, b. split; [exact E2|].
  pose proof (plain_hist_app _ _ _ _ _ PH _ _ PM) as PHM. destruct (plain_table farith order order_perm lay _ sm LO PHM) as (BM & LM & SDM & TE).
  rewrite stmts_app, S1, <- O in TE. cbv zeta. set (T := table_of _ lay (own id (h1 ++ a))) in *.
  assert (RW : orow_eq (rows_of (nd_m nd3) k) (rows_of (b_m sm) k)) by (apply (view_rows _ _ _ _ k (bi_r _ BM) R3); auto; [apply (bi_full _ BM SDM)|congruence]).
  split; [eapply orow_eq_trans; [exact RW|apply TE]|].
  intros w cols AS. assert (SE : snd (rstep farith order (nd_m nd3) (RSelect w cols)) = snd (rstep farith order (b_m sm) (RSelect w cols))).
  { apply (select_ext farith order (b_m sm) (nd_m nd3) w cols k); try congruence; [apply (ri_g _ _ (bi_r _ BM))|apply (ri_g _ _ R3)]. }
  rewrite SE. destruct (C24_durable_partial farith order order_perm lay _ sm LO PHM) as [_ D2]. rewrite stmts_app, S1, <- O in D2. fold T in D2.
  specialize (D2 w cols). rewrite AS in D2. exact D2.
Qed.
End Server.
Print Assumptions C114_server_partial.

Lemma grun_from (C : gst -> gop -> gout -> Prop) (ck : gst -> gop -> gout -> bool) (CK : forall g o r, ck g o r = true -> C g o r) g0 :
  forall ops g h h' g', gfrom noarith idorder gx_hash gx_verify C g0 h g -> grun g h ops = Some (h', g') -> wx_all ck g ops = true ->
  gfrom noarith idorder gx_hash gx_verify C g0 h' g'.
Proof.
  induction ops as [|o ops IH]; intros g h h' g' H E A; cbn [grun] in E; [injection E as <- <-; exact H|]. cbn [wx_all] in A.
  destruct (gstep _ _ _ _ g o) as [[g1 r]|] eqn:ST; [|discriminate E]. apply andb_true_iff in A as [A1 A2].
  assert (X : r <> GoFlush BoUb /\ r <> GoFlush BoPanic /\ r <> GoStmt RoUb /\ grun g1 (h ++ [(o, r)]) ops = Some (h', g')).
  { destruct r as [x|x|[]| |[]| | |]; try discriminate E; repeat split; try discriminate; exact E. }
  destruct X as (X1 & X2 & X3 & X4). eapply IH; [|exact X4|exact A2]. econstructor; eauto.
Qed.

(** two models; all changes of [items] are written; then rows are changed and removed and some changes
    written (a queued change of the other model is not), and the server is restarted *)
Definition cx_ops1 : list gop :=
  [GLogin ROOT gx_pw; GDdl 0 (gx_env 11 true) (SCreateSpace gx_s [] false);
   GDdl 0 (gx_env 12 true) (SCreateModel wx_i wx_fields [] false); GDdl 0 (gx_env 13 true) (SCreateModel wx_u wx_fields [] false);
   GDml 0 wx_i (wx_ins 1 10); GDml 0 wx_i (wx_ins 2 20)] ++ wx_flush wx_i 2.
Definition cx_upd (k n : N) : rstmt := RUpdate (at_key k) [mk_as f_n AAssign (LUInt n)].
Definition cx_ops2 : list gop :=
  [GDml 0 wx_u (wx_ins 1 50); GDml 0 wx_i (cx_upd 2 21); GDml 0 wx_i (RDelete (at_key 1)); GTake wx_i; GDml 0 wx_i (wx_ins 1 12); GDml 0 wx_i (cx_upd 2 22);
   GTake wx_u; GBegin 0; GStep wx_i WoOk; GStep wx_i WoOk; GEnd wx_i WoOk; GDml 0 wx_i (wx_ins 3 30)].
Definition cx_1 := wx_at cx_ops1.
Definition cx_2 := match grun (snd cx_1) [] cx_ops2 with Some x => x | None => ([], wx_start) end.
Definition cx_3 : option gst := match gstep noarith idorder gx_hash gx_verify (snd cx_2) (GRestart gx_pw 7) with Some (g, GoDone) => Some g | _ => None end.
Definition losesb (id : ent) (x : gop * gout) : bool :=
  match x with
  | (GDdl _ _ (SDropModel i _ _), GoDdl (OEmpty | OBool true)) => ent_eqb i id
  | (GDdl _ _ (SDropSpace s _ _), GoDdl (OEmpty | OBool true)) => bseq s (fst id)
  | _ => false
  end.
Lemma losesb_ok id o r : loses id o r -> losesb id (o, r) = true.
Proof.
  intros L. unfold loses in L. destruct o as [ |i en s| | | | | | | | | ]; try contradiction L. destruct s; try contradiction L; destruct r as [|x1| | | | | |]; try contradiction L;
    destruct x1 as [|[]| |]; try contradiction L; cbn [losesb]; subst; first [apply (eqb_r ent_eqb ent_eqb_eq)|apply bseq_refl].
Qed.
Example C114_server_example :
  ghist noarith idorder gx_hash gx_verify (gentle false wx_i) gx_pw 0 (fst cx_1) (snd cx_1) /\
  gfrom noarith idorder gx_hash gx_verify (gentle false wx_i) (snd cx_1) (fst cx_2) (snd cx_2) /\
  Forall usual (fst cx_1 ++ fst cx_2) /\ NoDup (used (fst cx_1 ++ fst cx_2)) /\ Forall (fun e => ~ loses wx_i (fst e) (snd e)) (fst cx_2) /\
  option_map (fun nd => m_queue (nd_m nd)) (aget ent_eqb wx_i (g_nodes (snd cx_1))) = Some [] /\
  map (wx_sel (snd cx_1) wx_i) [1; 2; 3] = [Some (RoRow [CQw QU8 10]); Some (RoRow [CQw QU8 20]); Some (RoErr ENoRow)] /\
  map (wx_sel (snd cx_2) wx_i) [1; 2; 3] = [Some (RoRow [CQw QU8 12]); Some (RoRow [CQw QU8 22]); Some (RoRow [CQw QU8 30])] /\
  option_map (fun g => map (wx_sel g wx_i) [1; 2; 3]) cx_3 = Some [Some (RoErr ENoRow); Some (RoRow [CQw QU8 20]); Some (RoErr ENoRow)].
Proof.
  assert (E1 : grun wx_start [] cx_ops1 = Some cx_1) by (vm_compute; reflexivity).
  assert (E2 : grun (snd cx_1) [] cx_ops2 = Some cx_2) by (vm_compute; reflexivity).
  split; [rewrite (surjective_pairing cx_1) in E1; eapply (grun_hist (gentle false wx_i) _ (gentleb_ok false wx_i)); [constructor|exact E1|vm_compute; reflexivity]|].
  split; [rewrite (surjective_pairing cx_2) in E2; eapply (grun_from (gentle false wx_i) _ (gentleb_ok false wx_i)); [constructor|exact E2|vm_compute; reflexivity]|].
  split; [apply usualb_ok; vm_compute; reflexivity|]. split; [apply freshb_ok; vm_compute; reflexivity|].
  split.
  { assert (F : forallb (fun e => negb (losesb wx_i e)) (fst cx_2) = true) by (vm_compute; reflexivity). rewrite forallb_forall in F. apply Forall_forall. intros [o r] I. specialize (F _ I).
    cbn [fst snd]. intros L. rewrite (losesb_ok _ _ _ L) in F. discriminate F. }
  split; [vm_compute; reflexivity|]. split; [vm_compute; reflexivity|]. split; [vm_compute; reflexivity|]. vm_compute. reflexivity.
Qed.
