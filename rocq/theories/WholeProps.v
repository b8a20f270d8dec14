(** C108, C109: the whole server. *)
From Coq Require Import Strings.String List NArith Bool Arith Lia Permutation.
From Verif Require Import Bytes AMap DataModel CodecModel GnsCodecModel DictModel GnsModel GnsProofs GnsHist GnsProps RowModel RowSpec RowProofs RowTable RowUpd RowProps
  BatchModel BatchProofs BatchTable BatchProps UpgradeModel UpgradeSteps WholeModel WholeSpec WholeProofs WholeSteps WholeInv WholeDdl WholeHist WholeFrame.
Import ListNotations.
Local Open Scope N_scope.

(** ** Running examples *)

(** events one after the other, with their answers *)
Fixpoint grun (g : gst) (h : list (gop * gout)) (ops : list gop) : option (list (gop * gout) * gst) :=
  match ops with
  | [] => Some (h, g)
  | o :: ops' =>
      match gstep noarith idorder gx_hash gx_verify g o with
      | Some (g', r) =>
          match r with
          | GoFlush BoUb | GoFlush BoPanic | GoStmt RoUb => None
          | _ => grun g' (h ++ [(o, r)]) ops'
          end
      | None => None
      end
  end.
Definition wx_start : gst := gstart gx_hash gx_pw 0.
Lemma grun_hist (C : gst -> gop -> gout -> Prop) (ck : gst -> gop -> gout -> bool) (CK : forall g o r, ck g o r = true -> C g o r) :
  forall ops g h h' g', ghist noarith idorder gx_hash gx_verify C gx_pw 0 h g -> grun g h ops = Some (h', g') ->
  (fix all (g : gst) (ops : list gop) : bool := match ops with [] => true | o :: ops' =>
     match gstep noarith idorder gx_hash gx_verify g o with Some (g1, r) => ck g o r && all g1 ops' | None => false end end) g ops = true ->
  ghist noarith idorder gx_hash gx_verify C gx_pw 0 h' g'.
Proof.
  induction ops as [|o ops IH]; intros g h h' g' H E A; cbn [grun] in E; [injection E as <- <-; exact H|].
  destruct (gstep _ _ _ _ g o) as [[g1 r]|] eqn:ST; [|discriminate E]. apply andb_true_iff in A as [A1 A2].
  assert (X : r <> GoFlush BoUb /\ r <> GoFlush BoPanic /\ r <> GoStmt RoUb /\ grun g1 (h ++ [(o, r)]) ops = Some (h', g')).
  { destruct r as [x|x|[]| |[]| | |]; try discriminate E; repeat split; try discriminate; exact E. }
  destruct X as (X1 & X2 & X3 & X4). eapply IH; [|exact X4|exact A2]. econstructor; eauto.
Qed.
Definition any (_ : gst) (_ : gop) (_ : gout) : Prop := True.
Definition wx_all (ck : gst -> gop -> gout -> bool) : gst -> list gop -> bool :=
  fix all (g : gst) (ops : list gop) : bool := match ops with [] => true | o :: ops' =>
     match gstep noarith idorder gx_hash gx_verify g o with Some (g1, r) => ck g o r && all g1 ops' | None => false end end.
Lemma wx_hist ops h g : grun wx_start [] ops = Some (h, g) -> wx_all (fun _ _ _ => true) wx_start ops = true ->
  ghist noarith idorder gx_hash gx_verify any gx_pw 0 h g.
Proof. intros E A. eapply (grun_hist any (fun _ _ _ => true)); [intros; exact Logic.I|constructor|exact E|exact A]. Qed.

(** checks [usual] and the difference of the uuids *)
Definition usualb (x : gop * gout) : bool :=
  match x with
  | (GDdl _ _ (SDropSpace _ true _), GoDdl (OErr ErrServer)) => false
  | (GDdl _ _ (SCreateSpace _ p _), GoDdl _) | (GDdl _ _ (SAlterSpace _ p), GoDdl _) => nd_b (DMap p)
  | _ => true
  end.
Lemma usualb_ok h : forallb usualb h = true -> Forall usual h.
Proof.
  rewrite forallb_forall, Forall_forall. intros H x Hx. specialize (H x Hx). destruct x as [o r]. unfold usual.
  destruct o as [u p|i en s|i id q|id|i|id w|id w|id u|i ok| |k z]; try exact Logic.I. destruct r as [x|x|x| |x| | |]; try exact Logic.I.
  destruct s as [k p nx|k p|k f ex|id fs p nx|id k|id f ex|u op|u op|u|]; try exact Logic.I.
  - cbn in H |- *. apply nd_b_ok. exact H.
  - cbn in H |- *. apply nd_b_ok. exact H.
  - destruct f; [|exact Logic.I]. intros ->. discriminate H.
Qed.
Definition freshb (h : list (gop * gout)) : bool := if list_eq_dec N.eq_dec (nodup N.eq_dec (used h)) (used h) then true else false.
Lemma freshb_ok h : freshb h = true -> NoDup (used h).
Proof. unfold freshb. destruct (list_eq_dec _ _ _) as [E|]; [|discriminate]. intros _. rewrite <- E. apply NoDup_nodup. Qed.

(** a server with two models: [items] is written, flushed, dropped and created again under the same name
    while a task of the old one and the deletion of its directory are pending; [users] goes on *)
Definition wx_i : ent := (gx_s, gx_m).
Definition wx_u : ent := (gx_s, bstr "users"%string).
Definition wx_fields : list field_spec :=
  [mk_fs f_id [gx_layer "uint64"%string] false true; mk_fs f_n [gx_layer "uint8"%string] false false].
Definition wx_ins (k n : N) : rstmt := RInsert (InsTuple [CQw QU64 k; CQw QU64 n]).
Definition wx_flush (id : ent) (n : nat) : list gop := [GTake id; GBegin 0] ++ repeat (GStep id WoOk) n ++ [GEnd id WoOk].
Definition wx_sel (g : gst) (id : ent) (k : N) : option rout :=
  match aget ent_eqb id (g_nodes g) with Some nd => Some (snd (rstep noarith idorder (nd_m nd) (RSelect (at_key k) (Some [f_n])))) | None => None end.
Definition wx_ops1 : list gop :=
  [GLogin ROOT gx_pw; GDdl 0 (gx_env 11 true) (SCreateSpace gx_s [] false);
   GDdl 0 (gx_env 12 true) (SCreateModel wx_i wx_fields [] false); GDdl 0 (gx_env 13 true) (SCreateModel wx_u wx_fields [] false);
   GDml 0 wx_i (wx_ins 1 10); GDml 0 wx_u (wx_ins 1 50); GDml 0 wx_i (wx_ins 2 20)] ++ wx_flush wx_i 2 ++
  [GDml 0 wx_i (RDelete (at_key 1)); GTake wx_i; GDml 0 wx_u (wx_ins 2 60);
   GDdl 0 (gx_env 14 true) (SDropModel wx_i true false); GDdl 0 (gx_env 15 true) (SCreateModel wx_i wx_fields [] false)].
Definition wx_ops2 : list gop :=
  [GBegin 0; GDelete 0 true; GRecover wx_i 12; GTake wx_i; GBegin 0].
Definition wx_ops3 : list gop :=
  wx_flush wx_u 2 ++ [GRestart gx_pw 0; GLogin ROOT gx_pw].
Definition wx_ops4 : list gop :=
  [GDml 0 wx_i (wx_ins 7 70); GDml 0 wx_u (RUpdate (at_key 1) [mk_as f_n AAssign (LUInt 51)])] ++ wx_flush wx_i 1 ++ wx_flush wx_u 1 ++ [GRestart gx_pw 0; GLogin ROOT gx_pw].
Definition wx_ops : list gop := wx_ops1 ++ wx_ops2 ++ wx_ops3 ++ wx_ops4.
Definition wx_at (ops : list gop) : list (gop * gout) * gst := match grun wx_start [] ops with Some x => x | None => ([], wx_start) end.

(** ** C108 *)

(** Full claim: every model holds what the statements addressed to it since its creation did. Proved: for
    every history of the whole server in which the generated uuids differ, no forced DROP SPACE failed at
    the log and no map names a property twice, each live model with its flush, its file and its tasks is
    in a state that the machine of one model (BatchModel.v) reaches from the columns in its CREATE MODEL by
    a history whose statements, with their answers, are exactly those addressed to that name since
    then. Missing: the other histories. *)
Theorem C108_own_history_partial : forall farith order hash verify, (forall l, Permutation (order l) l) ->
  forall C key salt h g, ghist farith order hash verify C key salt h g -> Forall usual h -> NoDup (used h) ->
  forall id nd, aget ent_eqb id (g_nodes g) = Some nd ->
  exists lay hb s df, born id h lay /\ bhist farith order (bst_new lay) hb s /\ stmts hb = own id h /\
    b_m s = nd_m nd /\ b_fl s = nd_fl nd /\ aget fid_eqb (nd_file nd) (g_files g) = Some df /\
    b_file s = df_bs df /\ b_torn s = df_torn df /\ b_bad s = df_bad df /\
    b_tasks s = map wt_n (filter (fun t => ent_eqb id (wt_id t) && (wt_uuid t =? nd_uuid nd)) (g_tasks g)).
Proof.
  intros farith order hash verify OP C key salt h g H US NU id nd GN.
  destruct (one_model farith order hash verify OP id C (fun _ _ _ => True) (fun _ _ _ _ _ _ _ _ _ _ _ => Logic.I) key salt h g H US NU nd GN) as (lay & hb & Q & S & B).
  pose proof (ghist_whole farith order hash verify OP C key salt h g H US NU) as W.
  destruct (aget fid_eqb (nd_file nd) (g_files g)) as [df|] eqn:GF; [|destruct (wo_file _ _ _ _ _ _ _ W id nd GN GF)].
  exists lay, hb, (gview g id nd), df. split; [exact B|]. split.
  { clear - Q. revert Q. generalize (gview g id nd). induction 1; [constructor|econstructor; eauto]. }
  split; [exact S|]. unfold gview, bare, file_at. rewrite GF. cbn [b_m b_fl b_file b_torn b_bad b_tasks]. repeat split; reflexivity.
Qed.
Print Assumptions C108_own_history_partial.

Example C108_own_history_example :
  grun wx_start [] wx_ops <> None /\ Forall usual (fst (wx_at wx_ops)) /\ NoDup (used (fst (wx_at wx_ops))) /\
  used (fst (wx_at wx_ops)) = [11; 12; 13; 15] /\
  own wx_i (fst (wx_at wx_ops)) = [(wx_ins 7 70, RoOk)] /\ length (own wx_u (fst (wx_at wx_ops))) = 3%nat /\
  wx_sel (snd (wx_at wx_ops)) wx_i 7 = Some (RoRow [CQw QU8 70]) /\ wx_sel (snd (wx_at wx_ops)) wx_i 2 = Some (RoErr ENoRow) /\
  wx_sel (snd (wx_at wx_ops)) wx_u 1 = Some (RoRow [CQw QU8 51]) /\ wx_sel (snd (wx_at wx_ops)) wx_u 2 = Some (RoRow [CQw QU8 60]).
Proof.
  split; [vm_compute; discriminate|]. split; [apply usualb_ok; vm_compute; reflexivity|]. split; [apply freshb_ok; vm_compute; reflexivity|]. vm_all.
Qed.

(** The models in memory are exactly those of the namespace, with the same columns and the number of the
    schema; each has a file of its own, at the path made from the names and the uuids. *)
Theorem C108_in_step_partial : forall farith order hash verify, (forall l, Permutation (order l) l) ->
  forall C key salt h g, ghist farith order hash verify C key salt h g -> Forall usual h -> NoDup (used h) ->
  let n := w_ns (sv_w (g_sv g)) in
  forall id,
    match aget ent_eqb id (g_nodes g), aget ent_eqb id (n_models n) with
    | Some nd, Some mm => m_lay (nd_m nd) = md_lay mm /\ N.of_nat (length (m_sd (nd_m nd))) = md_ver mm /\
        (exists sp, aget bseq (fst id) (n_spaces n) = Some sp /\ nd_file nd = ((fst id, sp_uuid sp), (snd id, lo_uuid (md_lay mm)))) /\
        aget fid_eqb (nd_file nd) (g_files g) <> None /\
        forall id' nd', aget ent_eqb id' (g_nodes g) = Some nd' -> id' <> id -> nd_file nd' <> nd_file nd
    | None, None => True
    | _, _ => False
    end.
Proof.
  intros farith order hash verify OP C key salt h g H US NU n id. pose proof (ghist_whole farith order hash verify OP C key salt h g H US NU) as W.
  pose proof (wo_sync _ _ _ _ _ _ _ W id) as SY. unfold synced in SY. fold n in SY.
  destruct (aget ent_eqb id (g_nodes g)) as [nd|] eqn:GN, (aget ent_eqb id (n_models n)) as [mm|] eqn:GM; auto.
  destruct SY as (Y1 & Y2 & Y3 & Y4). split; [exact Y1|]. split; [exact Y2|]. split.
  - unfold file_of in Y3. destruct id as [a b]. cbn [fst snd]. fold n in Y3.
    destruct (node_file order hash verify key salt h g (a, b) nd W GN) as (N1 & N2 & N3 & N4). unfold suuid in N4. fold n in N4. cbn [fst snd] in *.
    destruct (aget bseq a (n_spaces n)) as [sp|]; [|discriminate N4]. exists sp. split; [reflexivity|]. injection N4 as N4.
    unfold nd_uuid in N3. rewrite Y1 in N3. destruct (nd_file nd) as [[f1 f2] [f3 f4]]. cbn [fst snd] in *. congruence.
  - split; [exact (wo_file _ _ _ _ _ _ _ W id nd GN)|]. intros id' nd' GN' NE. eapply (files_differ order hash verify key salt h g id' id nd' nd W); auto.
Qed.
Print Assumptions C108_in_step_partial.

Example C108_in_step_example :
  map fst (g_nodes (snd (wx_at wx_ops))) = map fst (n_models (w_ns (sv_w (g_sv (snd (wx_at wx_ops)))))) /\
  map (fun kn => nd_file (snd kn)) (g_nodes (snd (wx_at wx_ops))) = [((gx_s, 11), (snd wx_u, 13)); ((gx_s, 11), (snd wx_i, 15))].
Proof. vm_all. Qed.

(** An event that is not about a model (its name is not in the statement or the task; its space is not
    being dropped; no restart) leaves its rows and its file alone, whatever else it does: statements on
    other models, writes and failed writes of other models, deletions of directories, dropping and
    re-creating of other models and spaces. *)
Theorem C108_others_untouched_partial : forall farith order hash verify, (forall l, Permutation (order l) l) ->
  forall C key salt h g o g' r, ghist farith order hash verify C key salt h g -> Forall usual (h ++ [(o, r)]) -> NoDup (used (h ++ [(o, r)])) ->
  gstep farith order hash verify g o = Some (g', r) ->
  forall id, ~ concerns g o id ->
    aget ent_eqb id (g_nodes g') = aget ent_eqb id (g_nodes g) /\
    forall nd, aget ent_eqb id (g_nodes g) = Some nd -> aget fid_eqb (nd_file nd) (g_files g') = aget fid_eqb (nd_file nd) (g_files g).
Proof.
  intros farith order hash verify OP C key salt h g o g' r H US NU HS id NC. apply Forall_app in US as [U1 U2]. inversion U2; subst.
  pose proof NU as NU0. rewrite used_snoc in NU0. apply nodup_left in NU0.
  pose proof (ghist_whole farith order hash verify OP C key salt h g H U1 NU0) as W. split.
  - eapply (node_frame farith order hash verify OP); eassumption.
  - intros nd GN. eapply (file_frame farith order hash verify OP); eassumption.
Qed.
Print Assumptions C108_others_untouched_partial.

Example C108_others_untouched_example :
  let g := snd (wx_at wx_ops1) in
  g_tasks g = [mk_wt wx_i 12 1] /\ g_dels g = [DelModel ((gx_s, 11), (gx_m, 12))] /\
  ~ concerns g (GDelete 0 true) wx_i /\ ~ concerns g (GDelete 0 true) wx_u /\ ~ concerns g (GBegin 0) wx_u /\
  length (g_files g) = 3%nat /\ length (g_files (snd (wx_at (wx_ops1 ++ [GDelete 0 true])))) = 2%nat.
Proof. cbv zeta. split; [vm_compute; reflexivity|]. split; [vm_compute; reflexivity|]. split; [intros []|]. split; [intros []|]. split; [vm_compute; intros X; discriminate X|]. vm_all. Qed.

(** A model that was created, under a new name or one used before, holds no row and its file no batch
    until a statement is addressed to it, whatever else happens: restarts, tasks and deletions meant for
    an earlier model of that name. *)
Theorem C108_starts_empty_partial : forall farith order hash verify, (forall l, Permutation (order l) l) ->
  forall C key salt h g, ghist farith order hash verify C key salt h g -> Forall usual h -> NoDup (used h) ->
  forall id nd, aget ent_eqb id (g_nodes g) = Some nd -> own id h = [] ->
  m_idx (nd_m nd) = [] /\ m_queue (nd_m nd) = [] /\ exists df, aget fid_eqb (nd_file nd) (g_files g) = Some df /\ df_bs df = [].
Proof.
  intros farith order hash verify OP C key salt h g H US NU id nd GN E.
  destruct (C108_own_history_partial farith order hash verify OP C key salt h g H US NU id nd GN) as (lay & hb & s & df & _ & BH & S & M & F & GF & BF & _).
  rewrite E in S. destruct (blank_hist farith order lay hb s BH S) as (B1 & _ & B3 & _ & B5 & _). rewrite M in *. split; [exact B1|]. split; [exact B3|].
  exists df. split; [exact GF|congruence].
Qed.
Print Assumptions C108_starts_empty_partial.

Example C108_starts_empty_example :
  let x := wx_at (wx_ops1 ++ wx_ops2 ++ wx_ops3) in
  length (fst x) = length (wx_ops1 ++ wx_ops2 ++ wx_ops3) /\ own wx_i (fst x) = [] /\ length (own wx_u (fst x)) = 2%nat /\ aget ent_eqb wx_i (g_nodes (snd x)) <> None /\
  wx_sel (snd x) wx_i 2 = Some (RoErr ENoRow) /\ wx_sel (snd (wx_at wx_ops1)) wx_i 2 = Some (RoErr ENoRow).
Proof. cbv zeta. split; [vm_compute; reflexivity|]. split; [vm_compute; reflexivity|]. split; [vm_compute; reflexivity|]. split; [vm_compute; discriminate|]. vm_all. Qed.

(** ** C109 *)

(** what is asked of the events as far as one model is concerned: no failed write to its file; values of
    INSERTs as the query layer makes them; UPDATEs that succeed or are refused in the harmless way (C20);
    restarts with all changes written. [adds]: ALTER MODEL ADD is allowed. *)
Definition gentle (adds : bool) (id : ent) (g : gst) (o : gop) (r : gout) : Prop :=
  match aget ent_eqb id (g_nodes g) with
  | None => True
  | Some nd =>
      match o with
      | GDml _ x (RInsert d) => x = id -> data_ok d
      | GDml _ x (RUpdate _ asg) => x = id -> r = GoStmt RoOk \/
          (r <> GoStmt RoPanic /\ NoDup (map as_lhs asg) /\ Forall (fun a => ~ is_append (lo_fields (m_lay (nd_m nd))) a) asg)
      | GDdl _ _ (SAlterModel x k) => x = id -> r = GoDdl OEmpty -> adds = true /\ match k with AkAdd _ => True | _ => False end
      | GStep x w | GEnd x w => x = id -> w = WoOk
      | GRestart _ _ => m_queue (nd_m nd) = []
      | _ => True
      end
  end.

Section Gentle.
Variable farith : aop -> N -> N -> N.
Variable order : fieldmap -> fieldmap.
Variable hash : bytes -> N -> bytes.
Variable verify : bytes -> bytes -> bool.
Hypothesis order_perm : forall l, Permutation (order l) l.

Lemma gentle_calm adds id g o r g' nd bo br : gentle adds id g o r -> gstep farith order hash verify g o = Some (g', r) ->
  aget ent_eqb id (g_nodes g) = Some nd -> induced id o r bo br ->
  calm (gview g id nd) bo br /\ match bo with BStmt (RAlter _ _) => adds = true | BRestart => m_queue (nd_m nd) = [] | _ => True end.
Proof using.
  unfold gentle, induced. intros G HS GN. rewrite GN in G.
  destruct o as [u p|i en t|i x q|x|i|x w|x w|x u|i ok| |k z], r as [y|y|y| |y| | |]; try (intros []; fail); try (destruct t; intros []; fail).
  - destruct t as [ | | | |x k| | | | | ]; try (intros []; fail). destruct y; try (intros []; fail). intros (-> & -> & ->). destruct (G eq_refl eq_refl) as [-> K].
    split; [|reflexivity]. cbn [calm]. destruct k; try destruct K. exact Logic.I.
  - intros (-> & -> & ->). cbn [calm]. destruct q as [d|w asg|w|w cols|cols limit|ak ok]; try (split; exact Logic.I).
    + split; [apply G; reflexivity|exact Logic.I].
    + split; [|exact Logic.I]. destruct (G eq_refl) as [E|(E1 & E2 & E3)]; [left; congruence|right]. split; [congruence|]. split; [exact E2|exact E3].
    + exfalso. cbn [gstep] in HS. destruct (nth_error _ i); discriminate HS.
  - intros (-> & -> & ->). split; exact Logic.I.
  - intros ([j ->] & ->). split; exact Logic.I.
  - intros (-> & -> & ->). cbn [calm]. auto.
  - intros (-> & -> & ->). cbn [calm]. auto.
  - intros (-> & -> & ->). split; exact Logic.I.
  - intros (-> & ->). cbn [calm]. split; [left; exact G|exact G].
Qed.

Lemma gentle_hist adds id (C : gst -> gop -> gout -> Prop) key salt h g : (forall g o r, C g o r -> gentle adds id g o r) -> ghist farith order hash verify C key salt h g -> Forall usual h -> NoDup (used h) ->
  forall nd, aget ent_eqb id (g_nodes g) = Some nd ->
  exists lay hb, calm_hist farith order lay hb (gview g id nd) /\ (adds = false -> plain_hist farith order lay hb (gview g id nd)) /\
    stmts hb = own id h /\ born id h lay /\ lay_ok lay.
Proof using order_perm.
  intros CG H US NU nd GN.
  destruct (one_model farith order hash verify order_perm id C
    (fun s bo br => calm s bo br /\ match bo with BStmt (RAlter _ _) => adds = true | BRestart => m_queue (b_m s) = [] | _ => True end)
    (fun g o r g' nd bo br c hs gn i => gentle_calm adds id g o r g' nd bo br (CG _ _ _ c) hs gn i) key salt h g H US NU nd GN) as (lay & hb & Q & S & B).
  exists lay, hb. split; [|split; [|split; [exact S|split; [exact B|]]]].
  - clear - Q. revert Q. generalize (gview g id nd). induction 1 as [|h0 s o s' r0 Q IH HS [C1 C2]]; [constructor|]. econstructor; eauto.
  - intros ->. clear - Q. revert Q. generalize (gview g id nd). induction 1 as [|h0 s o s' r0 Q IH HS [C1 C2]]; [constructor|]. econstructor; eauto.
    destruct o as [[]| | | | | |]; auto. discriminate C2.
  - destruct B as (h1 & i & en & fs & props & nx & o & h2 & _ & _ & _ & P). eapply GnsProofs.process_create_ok. exact P.
Qed.
End Gentle.

(** Full claim: every SELECT answers what the acknowledged statements say. Proved: for each model of which
    the events are [gentle] and which is not altered — whatever the other models go through, failed
    writes, panics of statements, ALTER MODEL included — the rows, over any number of restarts of the
    whole server, are those of the table that the acknowledged statements addressed to it since its
    creation make, and SELECT shows them. Missing: histories that are not gentle. *)
Theorem C109_table_partial : forall farith order hash verify, (forall l, Permutation (order l) l) ->
  forall id key salt h g, ghist farith order hash verify (gentle false id) key salt h g -> Forall usual h -> NoDup (used h) ->
  forall nd, aget ent_eqb id (g_nodes g) = Some nd ->
  exists lay, born id h lay /\
    let T := table_of (fun m asg => fst (update_row farith (lo_fields lay) m asg)) lay (own id h) in
    (forall k, orow_eq (rows_of (nd_m nd) k) (T k)) /\
    forall i w cols, nth_error (sv_sess (g_sv g)) i <> None ->
      exists g' a, gstep farith order hash verify g (GDml i id (RSelect w cols)) = Some (g', GoStmt a) /\
      match asked lay w with
      | None => True
      | Some k => match T k with
                  | None => a = RoErr ENoRow
                  | Some m => Forall (fun c => In c (map fst (lo_fields lay))) (wanted lay cols) ->
                      exists vals, a = RoRow vals /\ shows lay (key_cell k) m (wanted lay cols) vals
                  end
      end.
Proof.
  intros farith order hash verify OP id key salt h g H US NU nd GN.
  destruct (gentle_hist farith order hash verify OP false id _ key salt h g (fun _ _ _ c => c) H US NU nd GN) as (lay & hb & _ & PH & S & B & LO).
  exists lay. split; [exact B|]. cbv zeta. rewrite <- S. destruct (C24_durable_partial farith order OP lay hb (gview g id nd) LO (PH eq_refl)) as [D1 D2].
  split; [exact D1|]. intros i w cols SE. cbn [gstep]. destruct (nth_error (sv_sess (g_sv g)) i); [|contradiction]. cbn [is_dml negb]. rewrite GN.
  specialize (D2 w cols). unfold gview, bare in D2. cbn [b_m] in D2. destruct (rstep farith order (nd_m nd) (RSelect w cols)) as [m a]. cbn [snd] in D2.
  eexists. exists a. split; [reflexivity|]. exact D2.
Qed.
Print Assumptions C109_table_partial.

(** Full claim: the server starts again with everything. Proved: when the events were [gentle] for every
    model, with ALTER MODEL ADD allowed, and no flush is under way, a restart succeeds; it has the same
    models with the same columns, the same accounts but the root password set in the configuration, the
    same spaces up to the properties of C12, and every model that was not altered answers every SELECT of
    a row without an unwritten change as before. Missing: histories that are not gentle; altered models
    hold the same values (C25). *)
Theorem C109_restart_partial : forall farith order hash verify, (forall l, Permutation (order l) l) ->
  forall key salt h g, ghist farith order hash verify (fun g o r => forall id, gentle true id g o r) key salt h g -> Forall usual h -> NoDup (used h) ->
  flushing g = false ->
  forall key' salt', exists g', gstep farith order hash verify g (GRestart key' salt') = Some (g', GoDone) /\
    let n := w_ns (sv_w (g_sv g)) in let n' := w_ns (sv_w (g_sv g')) in
    n_models n' = n_models n /\
    (forall u, u <> ROOT -> aget bseq u (n_users n') = aget bseq u (n_users n)) /\
    akeys (n_spaces n') = akeys (n_spaces n) /\
    forall id,
      match aget ent_eqb id (g_nodes g), aget ent_eqb id (g_nodes g') with
      | None, None => True
      | Some nd, Some nd' => nd_file nd' = nd_file nd /\ m_lay (nd_m nd') = m_lay (nd_m nd) /\
          forall k, ~ queued (gview g id nd) k ->
            match rows_of (nd_m nd') k, rows_of (nd_m nd) k with
            | Some a, Some b => forall c, In c (map fst (lo_fields (m_lay (nd_m nd)))) -> c <> lo_pk (m_lay (nd_m nd)) ->
                match aget bseq c a with Some x => x | None => CNull end = match aget bseq c b with Some x => x | None => CNull end
            | None, None => True
            | _, _ => False
            end /\
            (m_sd (nd_m nd) = [] -> forall w cols, asked (m_lay (nd_m nd)) w = Some k ->
               snd (rstep farith order (nd_m nd') (RSelect w cols)) = snd (rstep farith order (nd_m nd) (RSelect w cols)))
      | _, _ => False
      end.
Proof.
  intros farith order hash verify OP key salt h g H US NU FL key' salt'.
  pose proof (ghist_whole farith order hash verify OP _ key salt h g H US NU) as W. pose proof W as [A B _ _ _ _ _ _].
  assert (BI : forall id nd, aget ent_eqb id (g_nodes g) = Some nd -> binv (gview g id nd) /\ b_fl (gview g id nd) = None).
  { intros id nd GN. destruct (gentle_hist farith order hash verify OP true id (fun g o r => forall id, gentle true id g o r) key salt h g (fun _ _ _ c => c id) H US NU nd GN) as (lay & hb & CH & _ & _ & _ & LO).
    split; [exact (calm_binv farith order OP lay hb _ LO CH)|]. exact (flushing_none _ _ _ FL GN). }
  destruct A as (l & A1 & A2 & A3).
  destruct (C12_restart_up_to_env_partial order hash verify OP key salt l (g_sv g) key' salt' A1 A2 A3) as (w & BO & EM & EU & EK & _).
  assert (HI : exists l0, hist order hash verify key salt l0 (g_sv g) /\ Forall op_nd l0 /\ Forall no_failed_drop l0) by eauto.
  destruct (boot_keeps order hash verify OP _ _ _ _ _ _ HI BO) as (_ & ES & EL).
  set (r := gstep farith order hash verify g (GRestart key' salt')). assert (R : exists g', r = Some (g', GoDone)).
  { unfold r. cbn [gstep GnsModel.step]. rewrite FL, BO. cbn [sv_w].
    destruct (load_nodes _ _ _ _) as [nodes|] eqn:LN; [eauto|]. exfalso. revert LN. apply load_nodes_ok. intros id mm I. rewrite EM in I.
    assert (GM : exists m0, aget ent_eqb id (n_models (w_ns (sv_w (g_sv g)))) = Some m0).
    { destruct (aget ent_eqb id _) eqn:X; [eauto|]. apply (aget_none ent_eqb ent_eqb_eq) in X. destruct X. apply in_map_iff. exists (id, mm). auto. }
    destruct GM as [m0 GM]. pose proof (B id) as SY. unfold synced in SY. rewrite GM in SY.
    destruct (aget ent_eqb id (g_nodes g)) as [nd|] eqn:GN; [|destruct SY]. destruct SY as (Y1 & Y2 & Y3 & Y4).
    destruct (BI id nd GN) as [B1 B2]. destruct (restart_view farith order _ B1 B2) as (s' & E & _). cbn [bstep] in E. rewrite B2 in E.
    destruct (b_bad (gview g id nd)) eqn:BD; [discriminate E|]. destruct (apply_batches _ _) as [m1|] eqn:AB; [|discriminate E].
    unfold gview, bare, file_at in BD, AB. cbn [b_bad b_m b_file] in BD, AB.
    destruct (aget fid_eqb (nd_file nd) (g_files g)) as [df|] eqn:GF; [|destruct (wo_file _ _ _ _ _ _ _ W id nd GN GF)].
    exists (nd_file nd), (md_lay m0), df, m1. split; [rewrite (file_of_eq (w_ns (sv_w (g_sv g)))); [exact Y3|apply ES|rewrite EM; reflexivity]|].
    split; [exact GF|]. split; [exact BD|]. rewrite <- AB. unfold reload_base. rewrite Y1, Y4. reflexivity. }
  destruct R as [g' R]. exists g'. split; [exact R|]. cbv zeta. unfold r in R.
  destruct (restart_step farith order hash verify OP key salt h g key' salt' g' GoDone W R) as [W' T].
  assert (SV : sv_w (g_sv g') = w).
  { cbn [gstep GnsModel.step] in R. rewrite FL, BO in R. destruct (load_nodes _ _ _ _); [|discriminate R]. injection R as <-. reflexivity. }
  rewrite SV. split; [exact EM|]. split; [exact EU|]. split; [exact EK|]. intros id.
  specialize (T id). unfold trans in T. pose proof (wo_sync _ _ _ _ _ _ _ W' id) as SY'. pose proof (B id) as SY. unfold synced in SY, SY'. rewrite SV, EM in SY'.
  destruct (aget ent_eqb id (g_nodes g)) as [nd|] eqn:GN, (aget ent_eqb id (g_nodes g')) as [nd'|] eqn:GN',
    (aget ent_eqb id (n_models (w_ns (sv_w (g_sv g))))) as [mm|]; try contradiction; auto.
  destruct SY as (_ & _ & Y3 & _), SY' as (_ & _ & Y3' & _). rewrite (file_of_eq (w_ns (sv_w (g_sv g)))) in Y3'; [|apply ES|rewrite EM; reflexivity].
  split; [congruence|]. destruct (BI id nd GN) as [B1 B2].
  destruct T as (_ & [[E1 _]|(bo & br & IN & BS)]).
  { apply (f_equal b_m) in E1. cbn [b_m gview bare] in E1. rewrite E1. split; [reflexivity|]. intros k _. split; [|reflexivity]. destruct (rows_of (nd_m nd) k); auto. }
  destruct (restart_view farith order _ B1 B2) as (s' & E & L & SD & Q & (t & RI) & IF & F' & FI & FU & V).
  assert (ME : b_m s' = nd_m nd').
  { destruct IN as [-> ->]. rewrite E in BS. injection BS as ->. reflexivity. }
  rewrite ME in *. split; [exact L|]. intros k NQ. split.
  - pose proof (view_val _ _ k L (V k NQ)) as X. cbn [b_m gview bare] in *.
    destruct (rows_of (nd_m nd') k), (rows_of (nd_m nd) k); auto. intros c C1 C2. apply X. apply col_names_in. auto.
  - intros SD0 ww cols AS. apply (select_ext farith order (nd_m nd) (nd_m nd') ww cols k); auto; [apply (ri_g _ _ (bi_r _ B1))|apply (ri_g _ _ RI)|rewrite SD; exact SD0|].
    apply (view_rows _ _ _ _ k (bi_r _ B1) RI); auto. apply (bi_full _ B1 SD0).
Qed.
Print Assumptions C109_restart_partial.

(** checks [gentle] for the models given *)
Definition gentleb (adds : bool) (id : ent) (g : gst) (o : gop) (r : gout) : bool :=
  match aget ent_eqb id (g_nodes g) with
  | None => true
  | Some nd =>
      match o with
      | GDml _ x (RInsert d) => negb (ent_eqb x id) || stmt_okb (RInsert d)
      | GDml _ x (RUpdate _ asg) => negb (ent_eqb x id) || match r with GoStmt RoOk => true | _ => false end
      | GDdl _ _ (SAlterModel x k) => negb (ent_eqb x id) || match r with GoDdl OEmpty => adds && match k with AkAdd _ => true | _ => false end | _ => true end
      | GStep x w | GEnd x w => negb (ent_eqb x id) || match w with WoOk => true | _ => false end
      | GRestart _ _ => match m_queue (nd_m nd) with [] => true | _ => false end
      | _ => true
      end
  end.
Lemma gentleb_ok adds id g o r : gentleb adds id g o r = true -> gentle adds id g o r.
Proof.
  unfold gentleb, gentle. destruct (aget ent_eqb id (g_nodes g)) as [nd|]; [|auto].
  assert (X : forall x b (P : Prop), (b = true -> P) -> negb (ent_eqb x id) || b = true -> x = id -> P).
  { intros x b P HP E ->. rewrite (eqb_r ent_eqb ent_eqb_eq) in E. cbn in E. auto. }
  destruct o as [u p|i en t|i x q|x|i|x w|x w|x u|i ok| |k z]; auto.
  - destruct t as [ | | | |x k| | | | | ]; auto. intros H E R. subst r. refine (X x _ _ _ H E). intros F. apply andb_true_iff in F as [-> F]. split; [reflexivity|]. destruct k; auto; discriminate F.
  - destruct q as [d|w asg|w|w cols|cols limit|ak ok]; auto; intros H F; refine (X x _ _ _ H F); intros E.
    + pose proof (stmt_okb_ok [(RInsert d, RoOk)]) as Y. cbn [forallb fst] in Y. rewrite E in Y. specialize (Y eq_refl). inversion Y; subst. assumption.
    + left. destruct r as [| |[]| | | | |]; try discriminate E. reflexivity.
  - intros H F; refine (X x _ _ _ H F). destruct w; [reflexivity|intros E; discriminate E].
  - intros H F; refine (X x _ _ _ H F). destruct w; [reflexivity|intros E; discriminate E].
  - destruct (m_queue (nd_m nd)); [reflexivity|intros E; discriminate E].
Qed.

(** the history above with a failed write of the other model: [items] is as if
    nothing had happened *)
Definition wx_ops5 : list gop :=
  [GDml 0 wx_u (wx_ins 3 90); GTake wx_u; GBegin 0; GStep wx_u (WoFail false); GRecover wx_u 13;
   GDml 0 wx_i (RUpdate (at_key 7) [mk_as f_n AAssign (LUInt 77)]); GDml 0 wx_i (RDelete (at_key 9))].
Example C109_table_example :
  ghist noarith idorder gx_hash gx_verify (gentle false wx_i) gx_pw 0 (fst (wx_at (wx_ops ++ wx_ops5))) (snd (wx_at (wx_ops ++ wx_ops5))) /\
  Forall usual (fst (wx_at (wx_ops ++ wx_ops5))) /\ NoDup (used (fst (wx_at (wx_ops ++ wx_ops5)))) /\
  map snd (own wx_i (fst (wx_at (wx_ops ++ wx_ops5)))) = [RoOk; RoOk; RoErr ENoRow] /\
  wx_sel (snd (wx_at (wx_ops ++ wx_ops5))) wx_i 7 = Some (RoRow [CQw QU8 77]).
Proof.
  split.
  { eapply (grun_hist (gentle false wx_i) (gentleb false wx_i) (gentleb_ok false wx_i) (wx_ops ++ wx_ops5)); [constructor|vm_compute; reflexivity|vm_compute; reflexivity]. }
  split; [apply usualb_ok; vm_compute; reflexivity|]. split; [apply freshb_ok; vm_compute; reflexivity|]. vm_all.
Qed.

Definition wx_gentle (g : gst) (o : gop) (r : gout) : bool := forallb (fun kn => gentleb true (fst kn) g o r) (g_nodes g).
Lemma wx_gentle_ok g o r : wx_gentle g o r = true -> forall id, gentle true id g o r.
Proof.
  unfold wx_gentle. rewrite forallb_forall. intros H id. destruct (aget ent_eqb id (g_nodes g)) as [nd|] eqn:GN; [|unfold gentle; rewrite GN; exact Logic.I].
  apply gentleb_ok. apply (aget_in ent_eqb ent_eqb_eq) in GN. exact (H (id, nd) GN).
Qed.
Definition wx_ops6 : list gop :=
  wx_ops ++ [GDdl 0 (gx_env 16 true) (SAlterModel wx_i (AkAdd [mk_ef (bstr "x"%string) [gx_layer "uint8"%string] [(bstr "nullable"%string, DData (CBool true))]]));
             GDml 0 wx_u (wx_ins 8 80)] ++ wx_flush wx_u 1 ++ [GDml 0 wx_u (RDelete (at_key 2))].
Example C109_restart_example :
  ghist noarith idorder gx_hash gx_verify (fun g o r => forall id, gentle true id g o r) gx_pw 0 (fst (wx_at wx_ops6)) (snd (wx_at wx_ops6)) /\
  Forall usual (fst (wx_at wx_ops6)) /\ NoDup (used (fst (wx_at wx_ops6))) /\ flushing (snd (wx_at wx_ops6)) = false /\
  option_map (fun nd => length (m_sd (nd_m nd))) (aget ent_eqb wx_i (g_nodes (snd (wx_at wx_ops6)))) = Some 1%nat /\
  option_map (fun nd => length (m_queue (nd_m nd))) (aget ent_eqb wx_u (g_nodes (snd (wx_at wx_ops6)))) = Some 1%nat /\
  wx_sel (snd (wx_at (wx_ops6 ++ [GRestart gx_pw 0]))) wx_u 8 = Some (RoRow [CQw QU8 80]).
Proof.
  split.
  { eapply (grun_hist _ wx_gentle wx_gentle_ok wx_ops6); [constructor|vm_compute; reflexivity|vm_compute; reflexivity]. }
  split; [apply usualb_ok; vm_compute; reflexivity|]. split; [apply freshb_ok; vm_compute; reflexivity|]. vm_all.
Qed.

(** Not every directory is cleaned up: a CREATE MODEL refused because the log is already known to be
    broken leaves its directory, belongs to no model, and no deletion of it is requested
    (fractal/drivers.rs:63-65). *)
Definition wx_orphan : list gop :=
  [GLogin ROOT gx_pw; GDdl 0 (gx_env 11 true) (SCreateSpace gx_s [] false);
   GDdl 0 (gx_env 12 false) (SCreateModel wx_i wx_fields [] false); GDdl 0 (gx_env 13 true) (SCreateModel wx_i wx_fields [] false)].
Theorem C108_orphan_refuted : exists h g f, ghist noarith idorder gx_hash gx_verify any gx_pw 0 h g /\ Forall usual h /\ NoDup (used h) /\
  map snd (skipn 2 h) = [GoDdl (OErr ErrServer); GoDdl (OErr ErrServer)] /\
  aget fid_eqb f (g_files g) <> None /\ g_nodes g = [] /\ Forall (fun d => hit d f = false) (g_dels g).
Proof.
  exists (fst (wx_at wx_orphan)), (snd (wx_at wx_orphan)), ((gx_s, 11), (gx_m, 13)). split.
  { eapply wx_hist with (ops := wx_orphan); vm_compute; reflexivity. }
  split; [apply usualb_ok; vm_compute; reflexivity|]. split; [apply freshb_ok; vm_compute; reflexivity|]. split; [vm_compute; reflexivity|].
  split; [vm_compute; discriminate|]. split; [vm_compute; reflexivity|]. vm_compute. repeat constructor.
Qed.
Print Assumptions C108_orphan_refuted.
