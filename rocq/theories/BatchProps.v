(** C24-C27: batches of row changes, flushing, and reloading a model. *)
From Coq Require Import Strings.String List Arith NArith ZArith Bool Lia Permutation Sorted.
From Verif Require Import Bytes AMap DataModel CodecModel CodecProofs DictModel TypeModel GnsCodecModel GnsModel GnsProofs
  RowModel RowSpec RowProofs RowTable RowUpd RowAlter RowLemmas RowProps BatchModel BatchProofs BatchTable.
Import ListNotations.
Local Open Scope N_scope.

(** ** Running examples *)

Definition nodupb (l : list bytes) : bool := if list_eq_dec (list_eq_dec Byte.byte_eq_dec) (nodup (list_eq_dec Byte.byte_eq_dec) l) l then true else false.
(** checks [calm] *)
Definition calmb (s : bst) (o : bop) (r : bout) : bool :=
  match o with
  | BStmt (RInsert d) => stmt_okb (RInsert d)
  | BStmt (RUpdate _ asg) =>
      match r with
      | BoStmt RoOk => true
      | BoStmt (RoErr _) => nodupb (map as_lhs asg) && forallb (fun a => match as_op a with AAdd => false | _ => true end) asg
      | _ => false
      end
  | BStmt (RAlter (AkAdd _) _) => true
  | BStmt (RAlter _ _) => match r with BoStmt (RoErr _) => true | _ => false end
  | BStep WoOk | BEnd WoOk => true
  | BStep _ | BEnd _ => false
  | BRestart => match m_queue (b_m s) with [] => true | _ =>
                  match rev (b_file s) with [] => true | b :: _ => match ba_evs b with [] => false | _ => true end end end
  | _ => true
  end.
Definition okb (r : bout) : bool := match r with BoUb | BoStmt RoUb | BoPanic => false | _ => true end.
Lemma calmb_ok s o r : calmb s o r = true -> calm s o r.
Proof.
  intros H. destruct o as [q| |i|w|w| |]; cbn [calm calmb] in *; auto.
  - destruct q as [d|w asg|w|w cols|cols limit|ak ok]; auto.
    + pose proof (stmt_okb_ok [(RInsert d, RoOk)]) as X. cbn [forallb fst] in X. rewrite H in X. specialize (X eq_refl).
      inversion X; subst. assumption.
    + destruct r as [[]| | | | |]; try discriminate H; auto. right. apply andb_true_iff in H as [H1 H2]. split; [discriminate|]. split.
      * unfold nodupb in H1. destruct (list_eq_dec _ _ _) as [E|]; [|discriminate]. rewrite <- E. apply NoDup_nodup.
      * apply Forall_forall. intros a Ha [E _]. rewrite forallb_forall in H2. specialize (H2 a Ha). rewrite E in H2. discriminate.
    + destruct ak; auto; destruct r as [[]| | | | |]; discriminate.
  - destruct w; [reflexivity|discriminate].
  - destruct w; [reflexivity|discriminate].
  - destruct (m_queue (b_m s)) as [|q0 qs]; [left; reflexivity|right]. unfold tail_live. destruct (rev (b_file s)) as [|b l] eqn:E.
    + left. apply (f_equal (@rev _)) in E. rewrite rev_involutive in E. rewrite E. reflexivity.
    + right. apply (f_equal (@rev _)) in E. rewrite rev_involutive in E. cbn in E. exists (rev l), b. split; [exact E|].
      destruct (ba_evs b); [discriminate|congruence].
Qed.
(** runs operations, checking each *)
Fixpoint crun (ck : bst -> bop -> bout -> bool) (s : bst) (h : list (bop * bout)) (ops : list bop) : option (bst * list (bop * bout)) :=
  match ops with
  | [] => Some (s, h)
  | o :: ops' =>
      let '(s1, r) := bstep noarith idorder s o in
      if ck s o r && okb r then crun ck s1 (h ++ [(o, r)]) ops' else None
  end.
Ltac vm_all := repeat match goal with |- _ /\ _ => split end; vm_compute; reflexivity.
Lemma okb_ok r : okb r = true -> r <> BoUb /\ r <> BoPanic /\ r <> BoStmt RoUb.
Proof. destruct r as [[]| | | | |]; try discriminate; repeat split; discriminate. Qed.
Lemma crun_calm lay ops : forall s h s' h', calm_hist noarith idorder lay h s -> crun calmb s h ops = Some (s', h') ->
  calm_hist noarith idorder lay h' s'.
Proof.
  induction ops as [|o ops IH]; intros s h s' h' H E; cbn [crun] in E; [inversion E; subst; exact H|].
  destruct (bstep noarith idorder s o) as [s1 r] eqn:ES. destruct (calmb s o r && okb r) eqn:EC; [|discriminate].
  apply andb_true_iff in EC as [C1 C2]. apply okb_ok in C2 as (C3 & C4 & C5). eapply IH; [|exact E].
  econstructor; eauto. apply calmb_ok. exact C1.
Qed.
Definition plainb (s : bst) (o : bop) (r : bout) : bool :=
  calmb s o r && match o with BStmt (RAlter _ _) => false | BRestart => match m_queue (b_m s) with [] => true | _ => false end | _ => true end.
Lemma crun_plain lay ops : forall s h s' h', plain_hist noarith idorder lay h s -> crun plainb s h ops = Some (s', h') ->
  plain_hist noarith idorder lay h' s'.
Proof.
  induction ops as [|o ops IH]; intros s h s' h' H E; cbn [crun] in E; [inversion E; subst; exact H|].
  destruct (bstep noarith idorder s o) as [s1 r] eqn:ES. destruct (plainb s o r && okb r) eqn:EC; [|discriminate].
  apply andb_true_iff in EC as [C1 C2]. apply okb_ok in C2 as (C3 & C4 & C5). eapply IH; [|exact E].
  apply andb_true_iff in C1 as [C1 C6].
  econstructor; eauto; [apply calmb_ok; exact C1|]. destruct o as [[]| | | | | |]; auto; try discriminate.
  destruct (m_queue (b_m s)); [reflexivity|discriminate].
Qed.
Definition final (lay : layout) (ck : bst -> bop -> bout -> bool) (ops : list bop) : bst :=
  match crun ck (bst_new lay) [] ops with Some (s, _) => s | None => bst_new lay end.
Lemma final_calm lay ops : crun calmb (bst_new lay) [] ops <> None ->
  exists h, calm_hist noarith idorder lay h (final lay calmb ops).
Proof.
  unfold final. destruct (crun calmb (bst_new lay) [] ops) as [[s h]|] eqn:E; [|congruence]. intros _. exists h.
  eapply crun_calm; [|exact E]. constructor.
Qed.

(** a history without checks *)
Definition nock (_ : bst) (_ : bop) (_ : bout) : bool := true.
Lemma crun_hist s0 ops : forall s h s' h', bhist noarith idorder s0 h s -> crun nock s h ops = Some (s', h') ->
  bhist noarith idorder s0 h' s'.
Proof.
  induction ops as [|o ops IH]; intros s h s' h' H E; cbn [crun] in E; [inversion E; subst; exact H|].
  destruct (bstep noarith idorder s o) as [s1 r] eqn:ES. cbn [nock andb] in E. destruct (okb r) eqn:EC; [|discriminate].
  apply okb_ok in EC as (C1 & C2 & C3). eapply IH; [|exact E]. econstructor; eauto.
Qed.
Definition outs (lay : layout) (ck : bst -> bop -> bout -> bool) (ops : list bop) : list (bop * bout) :=
  match crun ck (bst_new lay) [] ops with Some (_, h) => h | None => [] end.
Lemma final_hist lay ops : crun nock (bst_new lay) [] ops <> None ->
  bhist noarith idorder (bst_new lay) (outs lay nock ops) (final lay nock ops).
Proof.
  unfold final, outs. destruct (crun nock (bst_new lay) [] ops) as [[s h]|] eqn:E; [|congruence]. intros _.
  eapply crun_hist; [|exact E]. constructor.
Qed.

(** flush of everything counted *)
Definition flush_all (n : N) : list bop := BTake :: flush_ops n.
Definition w_ins (k n : N) : bop := BStmt (ins k n).
Definition w_upd (k n : N) : bop := BStmt (RUpdate (at_key k) [mk_as f_n AAssign (LUInt n)]).
Definition w_del (k : N) : bop := BStmt (RDelete (at_key k)).
Definition sel (s : bst) (k : N) : rout := snd (rstep noarith idorder (b_m s) (RSelect (at_key k) (Some [f_n]))).

(** ** C24: reloading *)

(** Full claim: after any history of row writes with any batching, reloading yields exactly the live
    rows. Proved: for every history without failed disk writes, without ALTER MODEL, with UPDATEs that
    succeed or are refused in the harmless way (C20), and earlier restarts happening when the last batch
    of the file holds a change or nothing was pending, the reload succeeds and every SELECT of a key without a queued
    change answers as before it. Missing: the histories of the refuted cases below. *)
Theorem C24_reload_partial : forall farith order, (forall l, Permutation (order l) l) ->
  forall lay h s, lay_ok lay -> calm_hist farith order lay h s ->
  Forall (fun e => match fst e with BStmt (RAlter _ _) => False | _ => True end) h -> b_fl s = None ->
  exists s', bstep farith order s BRestart = (s', BoDone) /\
    forall w cols k, asked lay w = Some k -> ~ queued s k ->
      snd (rstep farith order (b_m s') (RSelect w cols)) = snd (rstep farith order (b_m s) (RSelect w cols)).
Proof.
  intros farith order OP lay h s LO H NA NF. pose proof (calm_binv farith order OP _ _ _ LO H) as B.
  destruct (plain_no_alter farith order OP _ _ _ LO H NA) as [SD L].
  destruct (restart_view farith order s B NF) as (s' & E & L' & SD' & Q & (t & R) & IF & F' & FI & FU & V).
  exists s'. split; [exact E|]. intros w cols k HW NQ.
  apply (select_ext farith order _ _ w cols k); try congruence.
  - apply (ri_g _ _ (bi_r _ B)).
  - apply (ri_g _ _ R).
  - apply (view_rows _ _ _ _ k (bi_r _ B) R); auto. apply (bi_full _ B SD).
Qed.
Print Assumptions C24_reload_partial.

Definition ex_ops : list bop :=
  [w_ins 1 10; w_ins 2 20; w_upd 1 11] ++ flush_all 3 ++ [w_del 2; w_ins 3 30; w_upd 3 31; w_ins 2 22] ++ flush_all 4 ++
  [BRestart; w_upd 2 23; w_del 1] ++ flush_all 2 ++ [w_ins 4 40].
Example C24_reload_example : exists h, calm_hist noarith idorder ex_lay h (final ex_lay calmb ex_ops) /\
  b_fl (final ex_lay calmb ex_ops) = None /\ ~ queued (final ex_lay calmb ex_ops) (PkUInt 2) /\
  sel (final ex_lay calmb ex_ops) 2 = RoRow [CQw QU8 23] /\ sel (final ex_lay calmb ex_ops) 1 = RoErr ENoRow /\
  map (fun b => List.length (ba_evs b)) (b_file (final ex_lay calmb ex_ops)) = [2%nat; 3%nat; 2%nat].
Proof.
  destruct (final_calm ex_lay ex_ops) as [h H]; [vm_compute; discriminate|]. exists h. split; [exact H|].
  split; [vm_compute; reflexivity|]. split; [|repeat split; vm_compute; reflexivity].
  intros (d & o & D & E & K).
  assert (Q : map (fun d => match nth_error (m_objs (b_m (final ex_lay calmb ex_ops))) (dd_row d) with Some o => ro_key o | None => PkNull end)
                  (m_queue (b_m (final ex_lay calmb ex_ops))) = [PkUInt 4]) by (vm_compute; reflexivity).
  apply (in_map (fun d => match nth_error (m_objs (b_m (final ex_lay calmb ex_ops))) (dd_row d) with Some o => ro_key o | None => PkNull end)) in D.
  rewrite Q in D. cbv beta in D. rewrite E, K in D. destruct D as [D|[]].
  discriminate D.
Qed.

(** Across any number of restarts that happen with an empty queue, the rows are those of the table
    obtained from the acknowledged statements one after the other. *)
Theorem C24_durable_partial : forall farith order, (forall l, Permutation (order l) l) ->
  forall lay h s, lay_ok lay -> plain_hist farith order lay h s ->
  let T := table_of (fun m asg => fst (update_row farith (lo_fields lay) m asg)) lay (stmts h) in
  (forall k, orow_eq (rows_of (b_m s) k) (T k)) /\
  (forall w cols, match asked lay w with
     | None => True
     | Some k => match T k with
                 | None => snd (rstep farith order (b_m s) (RSelect w cols)) = RoErr ENoRow
                 | Some m =>
                     Forall (fun c => In c (map fst (lo_fields lay))) (wanted lay cols) ->
                     exists vals, snd (rstep farith order (b_m s) (RSelect w cols)) = RoRow vals /\
                       shows lay (key_cell k) m (wanted lay cols) vals
                 end
     end).
Proof.
  intros farith order OP lay h s LO H T. destruct (plain_table farith order OP lay h s LO H) as (B & L & SD & TE).
  split; [exact TE|]. intros w cols. pose proof (select_outcome farith order lay (b_m s) w cols LO (binv_tinv s lay B L SD)) as S.
  destruct (asked lay w) as [k|]; [|exact Logic.I]. specialize (TE k). fold T in TE.
  destruct (rows_of (b_m s) k) as [m|], (T k) as [m'|]; cbn [orow_eq] in TE; try contradiction; [|exact S].
  intros F. destruct S as [S _]. destruct (S F) as (vals & E & SH). exists vals. split; [exact E|].
  clear -SH TE. unfold shows in *. induction SH as [|c v cs vs HC HS IH]; constructor; [|exact IH].
  destruct HC as [HC|[H1 H2]]; [left; exact HC|right]. rewrite <- TE. auto.
Qed.
Print Assumptions C24_durable_partial.

Definition ex_ops2 : list bop :=
  [w_ins 1 10; w_ins 2 20; w_upd 1 11] ++ flush_all 3 ++ [BRestart; w_del 2; w_ins 3 30; w_upd 3 31; w_ins 2 22] ++ flush_all 4 ++
  [BRestart; w_upd 2 23; w_del 1; w_ins 4 40].
Example C24_durable_example : crun plainb (bst_new ex_lay) [] ex_ops2 <> None /\
  sel (final ex_lay plainb ex_ops2) 2 = RoRow [CQw QU8 23] /\ sel (final ex_lay plainb ex_ops2) 4 = RoRow [CQw QU8 40] /\
  sel (final ex_lay plainb ex_ops2) 1 = RoErr ENoRow.
Proof. split; [vm_compute; discriminate|]. vm_all. Qed.

(** A shutdown whose flushes meet no error, with all statements finished, loses no row. *)
Theorem C24_clean_shutdown_partial : forall farith order, (forall l, Permutation (order l) l) ->
  forall lay h s, lay_ok lay -> calm_hist farith order lay h s ->
  Forall (fun e => match fst e with BStmt (RAlter _ _) => False | _ => True end) h -> b_fl s = None ->
  (forall d o, In d (m_queue (b_m s)) -> nth_error (m_objs (b_m s)) (dd_row d) = Some o -> ro_key o <> PkNull) ->
  Forall (fun r => r <> BoUb /\ r <> BoPanic /\ r <> BoFail) (snd (brun farith order s (shutdown_ops s))) /\
  exists s', bstep farith order (fst (brun farith order s (shutdown_ops s))) BRestart = (s', BoDone) /\
    forall w cols, asked lay w <> None ->
      snd (rstep farith order (b_m s') (RSelect w cols)) = snd (rstep farith order (b_m s) (RSelect w cols)).
Proof.
  intros farith order OP lay h s LO H NA NF NN. pose proof (calm_binv farith order OP _ _ _ LO H) as B.
  destruct (plain_no_alter farith order OP _ _ _ LO H NA) as [SD L].
  destruct (shutdown_ok farith order s B NF) as (s1 & E1 & R1 & B1 & (L1 & SD1 & V1) & F1 & T1 & Q1 & _).
  { apply Forall_forall. intros d Hd o E. eapply NN; eauto. }
  split; [exact R1|]. rewrite E1.
  destruct (restart_view farith order s1 B1 F1) as (s' & E & L' & SD' & Q & (t & R) & IF & F' & FI & FU & V).
  exists s'. split; [exact E|]. intros w cols HW. destruct (asked lay w) as [k|] eqn:EW; [|congruence].
  apply (select_ext farith order _ _ w cols k); try congruence.
  - apply (ri_g _ _ (bi_r _ B)).
  - apply (ri_g _ _ R).
  - apply (view_rows _ _ _ _ k (bi_r _ B) R); auto; [apply (bi_full _ B SD)|apply FU; congruence|congruence|].
    rewrite V, V1; [reflexivity|]. intros (d & o & D & _). rewrite Q1 in D. destruct D.
Qed.
Print Assumptions C24_clean_shutdown_partial.

Example C24_clean_shutdown_example :
  let s := final ex_lay calmb ([w_ins 1 10; BTake; w_upd 1 11; w_ins 2 20; BTake; w_del 1; w_ins 5 50]) in
  b_tasks s = [1; 2] /\ m_qsize (b_m s) = 2 /\
  snd (brun noarith idorder s (shutdown_ops s)) <> [] /\
  b_file (fst (brun noarith idorder s (shutdown_ops s))) <> [].
Proof. cbv zeta. split; [vm_compute; reflexivity|]. split; [vm_compute; reflexivity|]. split; vm_compute; discriminate. Qed.


(** A refused UPDATE that names a column three times leaves the row changed in memory but queues
    nothing: reload gives another value than every SELECT before it. *)
Definition ex_bad : list bop := [w_ins 1 10] ++ flush_all 1 ++
  [BStmt (RUpdate (at_key 1) [mk_as f_n AAssign (LUInt 55); mk_as f_n AAssign (LUInt 99); mk_as f_n AAdd (LBool true)])].
Theorem C24_refused_update_refuted : exists lay h s s' k,
  lay_ok lay /\ bhist noarith idorder (bst_new lay) h s /\ b_fl s = None /\ m_queue (b_m s) = [] /\
  Forall (fun e => match fst e with BStmt (RAlter _ _) | BStep (WoFail _) | BEnd (WoFail _) => False | _ => True end) h /\
  bstep noarith idorder s BRestart = (s', BoDone) /\ sel s k = RoRow [CQw QU8 55] /\ sel s' k = RoRow [CQw QU8 10].
Proof.
  exists ex_lay, (outs ex_lay nock ex_bad), (final ex_lay nock ex_bad), (fst (bstep noarith idorder (final ex_lay nock ex_bad) BRestart)), 1.
  split; [apply ex_lay_ok|]. split; [apply final_hist; vm_compute; discriminate|].
  split; [vm_compute; reflexivity|]. split; [vm_compute; reflexivity|].
  split; [vm_compute; repeat constructor|]. split; [vm_compute; reflexivity|]. split; vm_compute; reflexivity.
Qed.
Print Assumptions C24_refused_update_refuted.

(** A DELETE takes its change number before it looks the row up; when an INSERT of that key runs in
    between, the deleted row is back after reload, though both statements were acknowledged, all changes
    were flushed, and the row was gone. *)
Theorem C24_delete_race_refuted : exists m1 v m2 m3 s4 s5,
  del_number (mst_new ex_lay) = (m1, v) /\
  rstep noarith idorder m1 (ins 1 10) = (m2, RoOk) /\
  del_apply m2 v (at_key 1) = (m3, RoOk) /\
  brun noarith idorder (mk_bst m3 [] [] None false false) (flush_all 2) = (s4, [BoDone; BoDone; BoDone; BoDone; BoDone]) /\
  m_queue (b_m s4) = [] /\ bstep noarith idorder s4 BRestart = (s5, BoDone) /\
  sel s4 1 = RoErr ENoRow /\ sel s5 1 = RoRow [CQw QU8 10].
Proof.
  pose (m1 := fst (del_number (mst_new ex_lay))). pose (m2 := fst (rstep noarith idorder m1 (ins 1 10))).
  pose (m3 := fst (del_apply m2 0 (at_key 1))).
  pose (s4 := fst (brun noarith idorder (mk_bst m3 [] [] None false false) (flush_all 2))).
  exists m1, 0, m2, m3, s4, (fst (bstep noarith idorder s4 BRestart)). vm_all.
Qed.
Print Assumptions C24_delete_race_refuted.

(** A row with a null key (C18) makes the flush undefined. *)
Theorem C24_null_key_refuted : exists h s,
  bhist noarith idorder (bst_new null_lay) h s /\
  In (BStmt (RInsert (InsTuple [CNull; CQw QU64 5])), BoStmt RoOk) h /\ snd (bstep noarith idorder s (BStep WoOk)) = BoUb.
Proof.
  pose (ops := [BStmt (RInsert (InsTuple [CNull; CQw QU64 5])); BTake; BBegin 0]).
  exists (outs null_lay nock ops), (final null_lay nock ops).
  split; [apply final_hist; vm_compute; discriminate|]. split; [left; vm_compute; reflexivity|vm_compute; reflexivity].
Qed.
Print Assumptions C24_null_key_refuted.

(** A statement acknowledged after the last flush before the process ends is not in the file. The
    executors and the connections are told to stop by the same signal (engine/mod.rs:180-190). *)
Theorem C24_late_write_refuted : exists s s',
  (exists h, calm_hist noarith idorder ex_lay h s /\ In (w_upd 1 11, BoStmt RoOk) h) /\ b_fl s = None /\ b_tasks s = [] /\
  bstep noarith idorder s BRestart = (s', BoDone) /\ sel s 1 = RoRow [CQw QU8 11] /\ sel s' 1 = RoRow [CQw QU8 10].
Proof.
  pose (ops := [w_ins 1 10] ++ flush_all 1 ++ [w_upd 1 11]).
  exists (final ex_lay calmb ops), (fst (bstep noarith idorder (final ex_lay calmb ops) BRestart)).
  split.
  { exists (outs ex_lay calmb ops). split; [|apply in_or_app with (l := firstn 5 (outs ex_lay calmb ops)); right; left; vm_compute; reflexivity].
    assert (E : crun calmb (bst_new ex_lay) [] ops = Some (final ex_lay calmb ops, outs ex_lay calmb ops)) by (vm_compute; reflexivity).
    eapply crun_calm; [|exact E]. constructor. }
  vm_all.
Qed.
Print Assumptions C24_late_write_refuted.

(** ** C25: reloading after ALTER MODEL *)

(** With ALTER MODEL ADD interleaved in any way, reloading gives the same rows: each declared column of
    each row without a queued change has the value it had, a missing one counting as null. *)
Theorem C25_add_partial : forall farith order, (forall l, Permutation (order l) l) ->
  forall lay h s, lay_ok lay -> calm_hist farith order lay h s -> b_fl s = None ->
  exists s', bstep farith order s BRestart = (s', BoDone) /\ m_lay (b_m s') = m_lay (b_m s) /\
    forall k, ~ queued s k ->
      match rows_of (b_m s') k, rows_of (b_m s) k with
      | Some a, Some b => forall c, In c (map fst (lo_fields (m_lay (b_m s)))) -> c <> lo_pk (m_lay (b_m s)) ->
          match aget bseq c a with Some x => x | None => CNull end = match aget bseq c b with Some x => x | None => CNull end
      | None, None => True
      | _, _ => False
      end.
Proof.
  intros farith order OP lay h s LO H NF. pose proof (calm_binv farith order OP _ _ _ LO H) as B.
  destruct (restart_view farith order s B NF) as (s' & E & L & SD & Q & _ & _ & _ & _ & _ & V).
  exists s'. split; [exact E|]. split; [exact L|]. intros k NQ. pose proof (view_val _ _ k L (V k NQ)) as W.
  destruct (rows_of (b_m s') k) as [a|], (rows_of (b_m s) k) as [b|]; auto. intros c C1 C2. apply W. apply col_names_in. auto.
Qed.
Print Assumptions C25_add_partial.

Definition w_add (c : bytes) : bop :=
  BStmt (RAlter (AkAdd [mk_ef c [mk_ls (bstr "uint8"%string) []] [(bstr "nullable"%string, DData (CBool true))]]) true).
Example C25_add_example :
  let ops := [w_ins 1 10; w_ins 2 20] ++ flush_all 2 ++ [w_add (bstr "x"%string); w_upd 2 21;
    BStmt (RInsert (InsTuple [CQw QU64 3; CQw QU64 30; CNull; CList []; CQw QU64 7]))] ++ flush_all 2 in
  let s := final ex_lay calmb ops in
  crun calmb (bst_new ex_lay) [] ops <> None /\ b_fl s = None /\ m_queue (b_m s) = [] /\ length (m_sd (b_m s)) = 1%nat /\
  match rows_of (b_m s) (PkUInt 3) with Some m => aget bseq (bstr "x"%string) m | None => None end = Some (CQw QU8 7).
Proof. cbv zeta. split; [vm_compute; discriminate|]. vm_all. Qed.

(** After ALTER MODEL REMOVE, rows written before it are read back with each value one column too far:
    here a string column holds an integer and the list column is null. *)
Theorem C25_remove_refuted : exists h s s',
  bhist noarith idorder (bst_new ex_lay) h s /\ b_fl s = None /\ m_queue (b_m s) = [] /\ b_bad s = false /\
  Forall (fun e => match e with (BStep w, _) | (BEnd w, _) => w = WoOk | (BStmt _, r) => r = BoStmt RoOk | _ => True end) h /\
  bstep noarith idorder s BRestart = (s', BoDone) /\
  snd (rstep noarith idorder (b_m s) (RSelect (at_key 1) (Some [f_s; f_l]))) = RoRow [CNull; CList [CQw QU8 1]] /\
  snd (rstep noarith idorder (b_m s') (RSelect (at_key 1) (Some [f_s; f_l]))) = RoRow [CQw QU8 10; CNull].
Proof.
  pose (ops := [w_ins 1 10] ++ flush_all 1 ++ [BStmt (RAlter (AkRemove [f_n]) true)]).
  exists (outs ex_lay nock ops), (final ex_lay nock ops), (fst (bstep noarith idorder (final ex_lay nock ops) BRestart)).
  split; [apply final_hist; vm_compute; discriminate|]. repeat (split; [vm_compute; reflexivity|]).
  split; [vm_compute; repeat constructor|]. vm_all.
Qed.
Print Assumptions C25_remove_refuted.

(** The same after ALTER MODEL UPDATE, which moves the column to the end (C59). *)
Theorem C25_update_refuted : exists h s s',
  bhist noarith idorder (bst_new ex_lay) h s /\ b_fl s = None /\ m_queue (b_m s) = [] /\ b_bad s = false /\
  Forall (fun e => match e with (BStep w, _) | (BEnd w, _) => w = WoOk | (BStmt _, r) => r = BoStmt RoOk | _ => True end) h /\
  bstep noarith idorder s BRestart = (s', BoDone) /\
  snd (rstep noarith idorder (b_m s) (RSelect (at_key 1) (Some [f_n; f_s; f_l]))) = RoRow [CQw QU8 10; CNull; CList [CQw QU8 1]] /\
  snd (rstep noarith idorder (b_m s') (RSelect (at_key 1) (Some [f_n; f_s; f_l]))) = RoRow [CList [CQw QU8 1]; CQw QU8 10; CNull].
Proof.
  pose (ops := [w_ins 1 10] ++ flush_all 1 ++ [BStmt (RAlter (AkUpdate [mk_ef f_n [mk_ls (bstr "uint16"%string) []] []]) true)]).
  exists (outs ex_lay nock ops), (final ex_lay nock ops), (fst (bstep noarith idorder (final ex_lay nock ops) BRestart)).
  split; [apply final_hist; vm_compute; discriminate|]. repeat (split; [vm_compute; reflexivity|]).
  split; [vm_compute; repeat constructor|]. vm_all.
Qed.
Print Assumptions C25_update_refuted.

(** ** C26: failures *)

(** Full claim: when a flush fails, each pending change is in the file or queued. It is false; what is
    true is collected here. *)

(** As long as no write fails, nothing is lost: the changes in the file, then those of the flush under
    way, then those queued, amount to the live rows, key by key. *)
Definition amount1 (k : pkey) (v : option (N * list cell)) (e : bev) : option (N * list cell) :=
  if pkey_eqb (be_key e) k then match be_kind e with DkDelete => None | _ => Some (be_txn e, be_cells e) end else v.
Definition amount (es : list bev) (k : pkey) : option (N * list cell) := fold_left (amount1 k) es None.
Lemma amount_kfold n k es : forall t v, exact_fit n es -> incr t (txns es) -> match v with Some (r, _) => r < t | None => True end ->
  fold_left (amount1 k) es v = kfold n k es v.
Proof.
  induction es as [|e es IH]; intros t v EX I HV; [reflexivity|]. inversion EX as [|? ? HE EX']; subst.
  cbn [txns map incr] in I. destruct I as [I1 I2]. unfold kfold. cbn [fold_left]. fold (kfold n k es (kstep n k v e)).
  assert (X : amount1 k v e = kstep n k v e).
  { unfold amount1, kstep. destruct (pkey_eqb (be_key e) k); [|reflexivity]. unfold is_put in HE.
    destruct (be_kind e); [|rewrite pad_id by (apply HE; discriminate); reflexivity|rewrite pad_id by (apply HE; discriminate); reflexivity].
    destruct v as [[r c]|]; [|reflexivity]. destruct (N.leb_spec r (be_txn e)); [reflexivity|lia]. }
  rewrite X. apply (IH (be_txn e + 1)); auto. rewrite <- X. unfold amount1.
  destruct (pkey_eqb (be_key e) k); [destruct (be_kind e); auto; lia|]. destruct v as [[r c]|]; auto. lia.
Qed.
Theorem C26_nothing_lost_partial : forall farith order, (forall l, Permutation (order l) l) ->
  forall lay h s, lay_ok lay -> calm_hist farith order lay h s ->
  Forall (fun e => match fst e with BStmt (RAlter _ _) => False | _ => True end) h ->
  forall k, (forall d o, In d (m_queue (b_m s)) -> nth_error (m_objs (b_m s)) (dd_row d) = Some o -> ro_key o <> k) ->
  amount (evs_of (b_file s) ++ match b_fl s with Some f => fl_evs f | None => [] end) k =
    match aget pkey_eqb k (m_idx (b_m s)) with
    | Some i => match nth_error (m_objs (b_m s)) i with
                | Some o => Some (ro_rev o, row_cells (m_lay (b_m s)) (ro_fields o))
                | None => None
                end
    | None => None
    end.
Proof.
  intros farith order OP lay h s LO H NA k NQ. pose proof (calm_binv farith order OP _ _ _ LO H) as B.
  destruct (plain_no_alter farith order OP _ _ _ LO H NA) as [SD L].
  pose proof (unqueued_written s k B) as W. unfold written, flying in W.
  change (amount (evs_of (b_file s) ++ match b_fl s with Some f => fl_evs f | None => [] end) k = view (b_m s) k).
  rewrite <- W; [|intros (d & o & D & E & K); exact (NQ d o D E K)].
  destruct (bi_full _ B SD) as [_ EX]. pose proof (bi_inc _ B) as IN. apply incr_app in IN as [IN _].
  apply (amount_kfold (ncols (b_m s)) k _ 0 None EX IN Logic.I).
Qed.
Print Assumptions C26_nothing_lost_partial.

(** As long as no write fails, the flusher never takes from an empty queue and the loader's assertion
    never fails. *)
Theorem C26_no_panic_partial : forall farith order, (forall l, Permutation (order l) l) ->
  forall lay h s o s' r, lay_ok lay -> calm_hist farith order lay h s ->
  bstep farith order s o = (s', r) -> calm s o r -> r <> BoPanic.
Proof.
  intros farith order OP lay h s o s' r LO H HS C. eapply no_panic; eauto. eapply calm_binv; eauto.
Qed.
Print Assumptions C26_no_panic_partial.

Example C26_calm_example :
  let ops := [w_ins 1 10; w_ins 2 20; BTake; BBegin 0; BStep WoOk; w_upd 1 11; w_del 2] in
  crun calmb (bst_new ex_lay) [] ops <> None /\
  amount (evs_of (b_file (final ex_lay calmb ops)) ++ match b_fl (final ex_lay calmb ops) with Some f => fl_evs f | None => [] end) (PkUInt 2) = None /\
  snd (bstep noarith idorder (final ex_lay calmb ops) (BStep WoOk)) = BoDone.
Proof. cbv zeta. split; [vm_compute; discriminate|]. vm_all. Qed.

(** A failed step of a flush: rows in memory, the file, and the changes not yet taken stay; the change
    being written goes to the end of the queue; the model becomes read-only; and every change already
    taken by this flush is in neither place. *)
Lemma sorted_nodup l : StronglySorted N.lt l -> NoDup l.
Proof. induction 1 as [|a l HS IH HF]; constructor; auto. intros HI. rewrite Forall_forall in HF. specialize (HF a HI). lia. Qed.
Lemma nodup_tail {A} (a b : list A) : NoDup (a ++ b) -> NoDup b.
Proof. induction a as [|x a IH]; cbn [app]; auto. intros H. inversion H; subst. auto. Qed.
Theorem C26_failed_step : forall farith order, (forall l, Permutation (order l) l) ->
  forall lay h s f rc s', lay_ok lay -> calm_hist farith order lay h s -> b_fl s = Some f ->
  bstep farith order s (BStep (WoFail rc)) = (s', BoFail) ->
  (forall k, view (b_m s') k = view (b_m s) k) /\ b_file s' = b_file s /\ m_iffy (b_m s') = true /\
  (exists d q, m_queue (b_m s) = d :: q /\ m_queue (b_m s') = q ++ [d]) /\
  (forall e, In e (fl_evs f) -> ~ In (be_txn e) (map be_txn (evs_of (b_file s'))) /\ ~ In (be_txn e) (map dd_ver (m_queue (b_m s')))).
Proof.
  intros farith order OP lay h s f rc s' LO H EF HS. pose proof (calm_binv farith order OP _ _ _ LO H) as B.
  cbn [bstep] in HS. rewrite EF in HS. destruct (fl_want f <=? fl_i f); [discriminate HS|].
  destruct (m_queue (b_m s)) as [|d q] eqn:EQ; [discriminate HS|]. cbv zeta in HS.
  pose proof (bi_q _ B) as Q. rewrite EQ in Q. inversion Q as [|? ? Q1 Q2]; subst.
  destruct (flush_one (set_queue q (m_qsize (b_m s)) (b_m s)) d) as [m2 res] eqn:EO.
  destruct res as [|e|]; try discriminate HS. apply pair_equal_spec in HS as [<- _].
  destruct (flush_one_ok _ _ _ _ _ (bi_r _ B) EQ Q1 (SrEv e) EO) as [S _]; [discriminate|].
  unfold flush_failed. cbn [b_m b_file set_iffy m_iffy].
  split; [intros k; transitivity (view m2 k); [reflexivity|]; rewrite (soft_view _ _ k S); reflexivity|].
  split; [reflexivity|]. split; [reflexivity|].
  assert (QQ : m_queue m2 = q) by (rewrite (so_queue _ _ S); reflexivity).
  split; [exists d, q; split; [reflexivity|]; cbn [m_queue enqueue set_queue set_iffy]; rewrite QQ; reflexivity|].
  intros x Hx. pose proof (bi_inc _ B) as I. unfold fresh, later, flying, txns in I. rewrite EF, EQ in I.
  pose proof (incr_sorted _ _ I) as SS. rewrite map_app, <- app_assoc in SS.
  apply sorted_nodup in SS. apply (in_map be_txn) in Hx. split.
  - intros HI. apply in_split in Hx as (l1 & l2 & EX). rewrite EX in SS.
    assert (P : NoDup (map be_txn (evs_of (b_file s)) ++ (be_txn x :: l1) ++ l2 ++ map dd_ver (d :: q))).
    { eapply Permutation_NoDup; [|exact SS]. apply Permutation_app_head. rewrite <- app_assoc. cbn [app]. symmetry.
      apply Permutation_middle. }
    cbn [app] in P. apply NoDup_remove_2 in P. apply P. apply in_or_app. left. exact HI.
  - cbn [m_queue enqueue set_queue set_iffy]. rewrite QQ, map_app. intros HI.
    assert (HQ : In (be_txn x) (map dd_ver (d :: q))).
    { apply in_app_or in HI as [HI|HI]; [right; exact HI|]. destruct HI as [HI|[]]. left. exact HI. }
    apply in_split in Hx as (l1 & l2 & EX). rewrite EX in SS. apply nodup_tail in SS.
    rewrite <- app_assoc in SS. cbn [app] in SS. apply NoDup_remove_2 in SS. apply SS.
    apply in_or_app. right. apply in_or_app. right. exact HQ.
Qed.
Print Assumptions C26_failed_step.

Example C26_failed_step_example :
  let s := final ex_lay calmb [w_ins 1 10; w_ins 2 20; w_ins 3 30; BTake; BBegin 0; BStep WoOk; BStep WoOk] in
  match b_fl s with Some f => map be_key (fl_evs f) | None => [] end = [PkUInt 1; PkUInt 2] /\
  snd (bstep noarith idorder s (BStep (WoFail true))) = BoFail.
Proof. cbv zeta. vm_all. Qed.

(** A failure at the end of a batch loses all its changes, and the retry asks the queue for as many
    changes again. *)
Theorem C26_failed_end : forall farith order, (forall l, Permutation (order l) l) ->
  forall lay h s f rc s', lay_ok lay -> calm_hist farith order lay h s -> b_fl s = Some f ->
  bstep farith order s (BEnd (WoFail rc)) = (s', BoFail) ->
  (forall k, view (b_m s') k = view (b_m s) k) /\ b_file s' = b_file s /\ m_queue (b_m s') = m_queue (b_m s) /\
  b_tasks s' = b_tasks s ++ [fl_want f] /\
  (forall e, In e (fl_evs f) -> ~ In (be_txn e) (map be_txn (evs_of (b_file s'))) /\ ~ In (be_txn e) (map dd_ver (m_queue (b_m s')))).
Proof.
  intros farith order OP lay h s f rc s' LO H EF HS. pose proof (calm_binv farith order OP _ _ _ LO H) as B.
  cbn [bstep] in HS. rewrite EF in HS. destruct (fl_i f <? fl_want f); [discriminate HS|].
  apply pair_equal_spec in HS as [<- _]. unfold flush_failed. cbn [b_m b_file b_tasks].
  split; [reflexivity|]. split; [reflexivity|]. split; [reflexivity|]. split; [rewrite N.sub_0_r; reflexivity|].
  intros x Hx. pose proof (bi_inc _ B) as I. unfold fresh, later, flying, txns in I. rewrite EF in I.
  pose proof (incr_sorted _ _ I) as SS. rewrite map_app, <- app_assoc in SS. apply sorted_nodup in SS. apply (in_map be_txn) in Hx.
  apply in_split in Hx as (l1 & l2 & EX). rewrite EX in SS. split.
  - intros HI.
    assert (P : NoDup (map be_txn (evs_of (b_file s)) ++ (be_txn x :: l1) ++ l2 ++ map dd_ver (m_queue (b_m s)))).
    { eapply Permutation_NoDup; [|exact SS]. apply Permutation_app_head. rewrite <- app_assoc. cbn [app]. symmetry.
      apply Permutation_middle. }
    cbn [app] in P. apply NoDup_remove_2 in P. apply P. apply in_or_app. left. exact HI.
  - cbn [set_iffy m_queue]. intros HI. apply nodup_tail in SS. rewrite <- app_assoc in SS. cbn [app] in SS.
    apply NoDup_remove_2 in SS. apply SS. apply in_or_app. right. apply in_or_app. right. exact HI.
Qed.
Print Assumptions C26_failed_end.

Example C26_failed_end_example :
  let s := final ex_lay calmb [w_ins 1 10; w_ins 2 20; BTake; BBegin 0; BStep WoOk; BStep WoOk; w_ins 4 4] in
  match b_fl s with Some f => map be_key (fl_evs f) | None => [] end = [PkUInt 1; PkUInt 2] /\
  snd (bstep noarith idorder s (BEnd (WoFail true))) = BoFail.
Proof. cbv zeta. vm_all. Qed.

(** the model is read-only, its file ends in a failed batch *)
Definition stuck (s : bst) : Prop := m_iffy (b_m s) = true /\ b_torn s = true /\ b_bad s = true /\ b_fl s = None.
(** Once a flush failed after writing a change, the model stays as it is for good: every write is refused,
    no later flush writes anything, the recovery attempts fail, and the restart fails. *)
Theorem C26_stuck_forever : forall farith order s f o0 s1, b_fl s = Some f -> fl_evs f <> [] ->
  (exists rc, o0 = BStep (WoFail rc) \/ o0 = BEnd (WoFail rc)) -> bstep farith order s o0 = (s1, BoFail) ->
  forall ops s2 rs, brun farith order s1 ops = (s2, rs) ->
  b_file s2 = b_file s /\
  (forall d, snd (rstep farith order (b_m s2) (RInsert d)) = RoErr ESys) /\
  (forall w a, snd (rstep farith order (b_m s2) (RUpdate w a)) = RoErr ESys) /\
  (forall w, snd (rstep farith order (b_m s2) (RDelete w)) = RoErr ESys) /\
  bstep farith order s2 BRecover = (s2, BoFail) /\ bstep farith order s2 BRestart = (s2, BoFail).
Proof.
  intros farith order s f o0 s1 EF NE (rc & HO) H1.
  assert (S1 : stuck s1 /\ b_file s1 = b_file s).
  { destruct HO as [-> | ->]; cbn [bstep] in H1; rewrite EF in H1.
    - destruct (_ <=? _); [discriminate H1|]. destruct (m_queue (b_m s)); [discriminate H1|]. cbv zeta in H1.
      destruct (flush_one _ _) as [m2 []]; try discriminate H1. apply pair_equal_spec in H1 as [<- _].
      unfold stuck, flush_failed. cbn. destruct (fl_evs f); [congruence|]. rewrite orb_true_r. auto.
    - destruct (_ <? _); [discriminate H1|]. apply pair_equal_spec in H1 as [<- _].
      unfold stuck, flush_failed. cbn. destruct (fl_evs f); [congruence|]. rewrite orb_true_r. auto. }
  assert (STEP : forall x o y r, stuck x -> bstep farith order x o = (y, r) -> stuck y /\ b_file y = b_file x).
  { clear. intros x o y r (I & T & Bd & F) H. destruct o as [q| |i|w|w| |]; cbn [bstep] in H; rewrite ?F in H.
    - destruct (rstep farith order (b_m x) q) as [m' r0] eqn:E.
      assert (IM : m_iffy m' = true).
      { clear -E I. destruct q as [d|w asg|w|w cols|cols limit|ak ok]; cbn [rstep] in E.
        - unfold exec_insert in E. rewrite I in E. inversion E; subst. exact I.
        - unfold exec_update in E. rewrite I in E. inversion E; subst. exact I.
        - unfold exec_delete in E. rewrite I in E. inversion E; subst. exact I.
        - unfold exec_select in E. destruct (resolve_where _ _); [|inversion E; subst; exact I].
          destruct (aget _ _ _); [|inversion E; subst; exact I]. destruct (nth_error _ _); [|inversion E; subst; exact I].
          cbv zeta in E. destruct (read_cols _ _ _ _); inversion E; subst; exact I.
        - unfold exec_select_all in E. cbv zeta in E. match type of E with (if ?b then _ else _) = _ => destruct b end; [inversion E; subst; exact I|].
          match type of E with (let '(a, b) := ?X in _) = _ => destruct X end. inversion E; subst. exact I.
        - unfold exec_alter in E. cbv zeta in E. destruct (fdeltas _ _ _) as [[e|[nl a]]|]; try (inversion E; subst; exact I).
          destruct (negb nl); [inversion E; subst; exact I|].
          destruct a; try (inversion E; subst; exact I); (destruct ok; inversion E; subst; exact I). }
      assert (H' : y = with_m m' x) by (destruct q; inversion H; subst; unfold with_m; rewrite F; reflexivity).
      rewrite H'. unfold stuck, with_m. cbn. auto.
    - inversion H; subst. unfold stuck. cbn. auto.
    - destruct (nth_error _ _); [|inversion H; subst; unfold stuck; auto]. cbv zeta in H. rewrite I in H. inversion H; subst. unfold stuck. cbn. auto.
    - inversion H; subst. unfold stuck. auto.
    - inversion H; subst. unfold stuck. auto.
    - rewrite T in H. inversion H; subst. unfold stuck. auto.
    - rewrite Bd in H. inversion H; subst. unfold stuck. auto. }
  intros ops. destruct S1 as [S1 FE]. rewrite <- FE. clear -S1 STEP. revert s1 S1.
  induction ops as [|o ops IH]; intros s1 S1 s2 rs H; cbn [brun] in H.
  - inversion H; subst. destruct S1 as (I & T & Bd & F). split; [reflexivity|]. cbn [rstep bstep].
    unfold exec_insert, exec_update, exec_delete. rewrite I, F, T, Bd. auto 7.
  - destruct (bstep farith order s1 o) as [x r] eqn:E. destruct (brun farith order x ops) as [y l] eqn:E2.
    inversion H; subst. destruct (STEP _ _ _ _ S1 E) as [SX <-]. eapply IH; eauto.
Qed.
Print Assumptions C26_stuck_forever.

(** After a failure before any byte of the batch, the model may recover; the retry then asks for more
    changes than are queued and the flusher panics. *)
Theorem C26_retry_panics_refuted : exists h s,
  bhist noarith idorder (bst_new ex_lay) h s /\ In (BEnd (WoFail false), BoFail) h /\ In (BRecover, BoDone) h /\
  snd (bstep noarith idorder s (BStep WoOk)) = BoPanic.
Proof.
  pose (ops := [w_ins 1 10; BTake; w_upd 1 11; BBegin 0; BStep WoOk; BEnd (WoFail false); BRecover; BBegin 0; BStep WoOk; BEnd WoOk;
                BTake; BBegin 0]).
  exists (outs ex_lay nock ops), (final ex_lay nock ops). split; [apply final_hist; vm_compute; discriminate|].
  split; [vm_compute; tauto|]. split; [vm_compute; tauto|]. vm_compute. reflexivity.
Qed.
Print Assumptions C26_retry_panics_refuted.

(** ** C27: change numbers *)

(** Full claim: every write gets a larger number than all before it, also across restarts. Proved for
    every history without failed disk writes whose restarts happened with nothing pending, or with a
    last batch that holds a change: the numbers in the file, then those being flushed, then those queued
    are strictly increasing, and the next acknowledged write gets a larger one. *)
Theorem C27_increasing_partial : forall farith order, (forall l, Permutation (order l) l) ->
  forall lay h s, lay_ok lay -> calm_hist farith order lay h s ->
  let all := map be_txn (evs_of (b_file s)) ++ map be_txn match b_fl s with Some f => fl_evs f | None => [] end ++
             map dd_ver (m_queue (b_m s)) in
  StronglySorted N.lt all /\
  forall q m', rstep farith order (b_m s) q = (m', RoOk) -> match q with RInsert _ | RUpdate _ _ | RDelete _ => True | _ => False end ->
    exists d, m_queue m' = m_queue (b_m s) ++ [d] /\ Forall (fun v => v < dd_ver d) all.
Proof.
  intros farith order OP lay h s LO H all. pose proof (calm_binv farith order OP _ _ _ LO H) as B.
  assert (EA : all = txns (written s) ++ map dd_ver (m_queue (b_m s))).
  { unfold all, written, flying, txns. rewrite map_app, <- app_assoc. reflexivity. }
  rewrite EA. split; [apply (incr_sorted _ 0), (bi_inc _ B)|]. intros q m' HS W.
  enough (X : exists d, m_queue m' = m_queue (b_m s) ++ [d] /\ dd_ver d = m_dver (b_m s)).
  { destruct X as (d & Q & V). exists d. split; [exact Q|]. rewrite V.
    eapply Forall_impl; [|apply (incr_lt _ 0), (bi_inc _ B)]. cbn beta. intros v Hv.
    pose proof (bi_bnd _ B) as BB. change (fresh s) with (written s) in BB. change (pa_t no_past) with 0 in BB. clear -BB Hv. lia. }
  destruct q as [d|w asg|w| | |]; try contradiction W; cbn [rstep] in HS.
  - unfold exec_insert in HS. destruct (m_iffy (b_m s)); [discriminate HS|]. destruct (prepare_insert _ _) as [[pk r]| |]; try discriminate HS.
    cbv zeta in HS. destruct (aget _ _ _); [discriminate HS|]. apply pair_equal_spec in HS as [<- _]. eexists. split; reflexivity.
  - unfold exec_update in HS. destruct (m_iffy (b_m s)); [discriminate HS|]. destruct (resolve_where _ _); [|discriminate HS].
    destruct (aget _ _ _); [|discriminate HS]. destruct (nth_error _ _); [|discriminate HS]. cbv zeta in HS.
    destruct (update_row _ _ _ _) as [f []]; try discriminate HS. apply pair_equal_spec in HS as [<- _]. eexists. split; reflexivity.
  - unfold exec_delete in HS. destruct (m_iffy (b_m s)); [discriminate HS|]. cbv zeta in HS. destruct (resolve_where _ _); [|discriminate HS].
    destruct (aget _ _ _); [|discriminate HS]. apply pair_equal_spec in HS as [<- _]. eexists. split; reflexivity.
Qed.
Print Assumptions C27_increasing_partial.

Example C27_increasing_example :
  let s := final ex_lay calmb (ex_ops ++ [BTake; BBegin 0; w_upd 2 99]) in
  map be_txn (evs_of (b_file s)) = [1; 2; 3; 5; 6; 7; 8] /\ map dd_ver (m_queue (b_m s)) = [9; 10] /\ m_dver (b_m s) = 11.
Proof. cbv zeta. vm_all. Qed.

(** When the last batch of the file holds no change (each was overtaken by a later one that did not make
    it to the file), a restart sets the counter back; the next write reuses a number, and the restart
    after that panics: the model can never be loaded again. No disk write failed. *)
Theorem C27_reuse_refuted : exists h s, bhist noarith idorder (bst_new ex_lay) h s /\
  Forall (fun e => match e with (BStmt _, r) => r = BoStmt RoOk | (BStep w, _) | (BEnd w, _) => w = WoOk | _ => True end) h /\
  map be_txn (evs_of (b_file s)) = [1; 1] /\ b_fl s = None /\ m_queue (b_m s) = [] /\ b_bad s = false /\
  snd (bstep noarith idorder s BRestart) = BoPanic.
Proof.
  pose (ops := [w_ins 1 10; w_upd 1 11] ++ flush_all 2 ++ [w_ins 2 20; BTake; w_upd 2 21] ++ flush_ops 1 ++ [BRestart; w_upd 1 12] ++ flush_all 1).
  exists (outs ex_lay nock ops), (final ex_lay nock ops). split; [apply final_hist; vm_compute; discriminate|].
  split; [vm_compute; repeat constructor|]. vm_all.
Qed.
Print Assumptions C27_reuse_refuted.
