(** The upgrade step by step. *)
From Coq Require Import Strings.String List Arith NArith Bool Lia Permutation.
From Verif Require Import Bytes AMap DataModel CodecModel CodecProofs GnsCodecModel GnsCodecProofs GnsModel GnsProofs RowModel RowSpec RowProofs
  BatchModel BatchCodec BatchProofs BatchTable V1Model V1Spec V1LogProofs V1LogProps V1FileProofs
  UpgradeModel UpgradeSpec UpgradeProofs UpgradeNs V1FileProps UpgradeLoad.
Import ListNotations.
Local Open Scope N_scope.

Lemma fid_eqb_eq a b : fid_eqb a b = true <-> a = b.
Proof.
  destruct a as [[a1 a2] [a3 a4]], b as [[b1 b2] [b3 b4]]. unfold fid_eqb. cbn [fst snd].
  rewrite !andb_true_iff, !bseq_eq, !N.eqb_eq. split; [intros [[[-> ->] ->] ->]; reflexivity | intros H; inversion H; auto].
Qed.

(** ** Log and data files that were opened again *)
Lemma closed_log_again crc32 l : closed_log crc32 (l ++ [LRestart]) =
  (closed_log crc32 l ++ v_mark (N.of_nat (List.length l)) SRC_REOPENED) ++ v_mark (N.of_nat (List.length l) + 1) SRC_CLOSED.
Proof.
  unfold closed_log.
  assert (X : forall l id, log_bytes crc32 id (l ++ [LRestart]) =
    log_bytes crc32 id l ++ v_mark (id + N.of_nat (List.length l)) SRC_CLOSED ++ v_mark (id + N.of_nat (List.length l)) SRC_REOPENED).
  { clear. induction l as [|o l IH]; intros id.
    - cbn [app log_bytes lop_bytes List.length]. rewrite N.add_0_r, app_nil_r. reflexivity.
    - cbn [app log_bytes List.length]. rewrite IH, <- !app_assoc.
      replace (id + 1 + N.of_nat (List.length l)) with (id + N.of_nat (S (List.length l))) by lia. reflexivity. }
  rewrite X, app_length. cbn [List.length]. rewrite <- !app_assoc.
  replace (N.of_nat (List.length l + 1)) with (N.of_nat (List.length l) + 1) by lia. reflexivity.
Qed.

Lemma open_log_refused crc32 cap (G : Type) (upd : bytes -> G -> vupd G) l g g' : (0 < cap)%nat ->
  Forall (lop_ok crc32) l -> N.of_nat (List.length l) + 1 < two64 -> fed upd (payloads l) g = Some g' ->
  v_scroll crc32 cap G upd (closed_log crc32 l ++ v_mark (N.of_nat (List.length l)) SRC_REOPENED) g = VrErr.
Proof.
  intros CP W L U. set (l' := l ++ [LRestart]).
  assert (E : closed_log crc32 l ++ v_mark (N.of_nat (List.length l)) SRC_REOPENED = log_bytes crc32 0 l').
  { pose proof (closed_log_again crc32 l) as C. fold l' in C. unfold closed_log at 1 in C.
    assert (LL : N.of_nat (List.length l') = N.of_nat (List.length l) + 1) by (unfold l'; rewrite app_length; cbn [List.length]; lia).
    rewrite LL in C. apply app_inv_tail in C. symmetry. exact C. }
  rewrite E. set (file := log_bytes crc32 0 l').
  assert (W' : Forall (lop_ok crc32) l') by (apply Forall_app; split; [exact W | repeat constructor]).
  assert (U' : lops_run G upd l' g = Some g').
  { rewrite lops_run_fed. unfold l', payloads. rewrite flat_map_app. cbn [flat_map app]. rewrite app_nil_r. exact U. }
  unfold v_scroll. set (r0 := mk_v1r [] 0 0 false g).
  assert (FL : exists k, S (List.length file) = (List.length l' + S k)%nat).
  { exists (List.length file - List.length l')%nat. unfold file. pose proof (log_bytes_len crc32 cap CP l' 0). lia. }
  destruct FL as [k ->].
  destruct (v_loop_ops crc32 cap CP G upd file l' (S k) r0 [] g') as (r & E1 & S1 & K1 & I1 & C1 & G1); try assumption; try reflexivity.
  - apply (init_ok cap CP).
  - cbn [r0 r_id]. unfold l'. rewrite app_length. cbn [List.length]. lia.
  - unfold r0, file, v_stream. cbn [r_buf r_in r_id app skipn]. rewrite app_nil_r. reflexivity.
  - rewrite E1. cbn [v_loop]. rewrite S1, C1. reflexivity.
Qed.

Lemma batches_again l : batches (l ++ [FRestart]) = batches l.
Proof. unfold batches. rewrite flat_map_app. cbn [flat_map]. apply app_nil_r. Qed.
Lemma closed_data_again l : closed_data (l ++ [FRestart]) = (closed_data l ++ [MK_REOPEN]) ++ [MK_CLOSED].
Proof. unfold closed_data. rewrite map_app, concat_app. cbn [map concat fop_bytes]. rewrite <- !app_assoc. reflexivity. Qed.

Lemma open_file_refused utf8 s l s' : Forall (fop_wf utf8) l -> v1_apply_all s (batches l) = Some s' ->
  v1_read_file utf8 v1_apply s (closed_data l ++ [MK_REOPEN]) = VrErr.
Proof.
  intros W A. unfold v1_read_file, closed_data.
  assert (FB : forall bs s, fold_batches _ v1_apply s bs = v1_apply_all s bs).
  { clear. induction bs as [|b bs IH]; intros s; [reflexivity|]. cbn [fold_batches v1_apply_all].
    destruct (v1_apply s (fst b) (snd b)); [apply IH | reflexivity]. }
  rewrite <- app_assoc. cbn [app].
  assert (FL : exists k, S (List.length (concat (map fop_bytes l) ++ [MK_CLOSED; MK_REOPEN])) = (List.length l + S (S k))%nat).
  { exists (List.length (concat (map fop_bytes l) ++ [MK_CLOSED; MK_REOPEN]) - List.length l - 1)%nat.
    rewrite app_length. pose proof (fops_len l). cbn [List.length]. lia. }
  destruct FL as [k ->]. rewrite p_file_ops by (assumption || congruence). rewrite FB, A. reflexivity.
Qed.

(** ** Loading the tables from files in different states *)
Inductive fstate := FsGood | FsOpen | FsGone.
Definition fstate_holds utf8 n d files (ops : ent -> list fop) (id : ent) (s : fstate) : Prop :=
  match s with
  | FsGood => exists ops', (forall i, batches (ops' i) = batches (ops i)) /\ file_holds utf8 n d files ops' id
  | FsOpen => exists f lay files0, file_of n id = Some (f, lay) /\ file_holds utf8 n d files0 ops id /\
               aget fid_eqb f files = Some (closed_data (ops id) ++ [MK_REOPEN])
  | FsGone => exists f lay, file_of n id = Some (f, lay) /\ aget fid_eqb f files = None
  end.

Lemma load_table_good utf8 n d files ops id : file_holds utf8 n d files ops id ->
  exists f lay b t, file_of n id = Some (f, lay) /\ aget fid_eqb f files = Some b /\
    v1_read_file utf8 v1_apply (base_of lay (sds_get d id)) b = VrOk t /\ table_holds n d ops id t /\
    v1_apply_all (base_of lay (sds_get d id)) (batches (ops id)) = Some t.
Proof.
  intros H. pose proof H as (f & lay & E1 & E2 & W & _).
  destruct (load_tables_ok utf8 n d files ops [id]) as (ts & E & M & T); [constructor; [exact H | constructor]|].
  cbn [load_tables] in E. rewrite E1, E2 in E. rewrite C80_data_file_read_exactly in E by exact W.
  exists f, lay, (closed_data (ops id)). destruct (v1_apply_all (base_of lay (sds_get d id)) (batches (ops id))) as [t|] eqn:A; [|discriminate E].
  exists t. split; [exact E1|]. split; [exact E2|]. inversion E; subst. inversion T; subst. split; [|split; [assumption|reflexivity]].
  rewrite C80_data_file_read_exactly, A by exact W. reflexivity.
Qed.

Lemma table_holds_ext n d ops ops' id t : (forall i, batches (ops' i) = batches (ops i)) ->
  table_holds n d ops' id t -> table_holds n d ops id t.
Proof. intros H (f & lay & T). exists f, lay. rewrite H in T. exact T. Qed.

Lemma load_tables_states utf8 n d files ops ids st : Forall (fun id => fstate_holds utf8 n d files ops id (st id)) ids ->
  (load_tables utf8 n d files ids = VrErr /\ Exists (fun id => st id <> FsGood) ids) \/
  (Forall (fun id => st id = FsGood) ids /\ exists ts, load_tables utf8 n d files ids = VrOk ts /\ map fst ts = ids /\
     Forall (fun it => table_holds n d ops (fst it) (snd it)) ts).
Proof.
  induction 1 as [|id ids H HF IH]; [right; split; [constructor|]; exists []; repeat split; constructor|].
  cbn [load_tables]. destruct (st id) eqn:ES; cbn [fstate_holds] in H.
  - destruct H as (ops' & EX & H). destruct (load_table_good _ _ _ _ _ _ H) as (f & lay & b & t & E1 & E2 & E3 & T & _).
    rewrite E1, E2, E3. destruct IH as [[IH X] | (G & ts & IH & M & TS)]; rewrite IH.
    + left. split; [reflexivity|]. apply Exists_cons_tl. exact X.
    + right. split; [constructor; assumption|]. exists ((id, t) :: ts). cbn [map fst]. split; [reflexivity|]. split; [congruence|].
      constructor; [|exact TS]. eapply table_holds_ext; eassumption.
  - left. destruct H as (f & lay & files0 & E1 & H & E2). pose proof H as (f0 & lay0 & E3 & _ & W & _).
    destruct (load_table_good _ _ _ _ _ _ H) as (f1 & lay1 & b & t & E4 & E5 & E6 & T & A). rewrite E1, E2.
    assert (lay1 = lay) by congruence. subst lay1. rewrite (open_file_refused _ _ _ _ W A). split; [reflexivity|].
    apply Exists_cons_hd. congruence.
  - left. destruct H as (f & lay & E1 & E2). rewrite E1, E2. split; [reflexivity|]. apply Exists_cons_hd. congruence.
Qed.

(** ** Effects of the steps on the files *)
Definition addall (x : bytes) (fs : list fid) (l : list (fid * bytes)) : list (fid * bytes) :=
  fold_left (fun l f => add_bytes f x l) fs l.
Lemma addall_get x fs : forall l g, NoDup fs -> aget fid_eqb g (addall x fs l) =
  if existsb (fid_eqb g) fs then option_map (fun b => b ++ x) (aget fid_eqb g l) else aget fid_eqb g l.
Proof.
  induction fs as [|f fs IH]; intros l g ND; [reflexivity|]. inversion ND as [|? ? NI ND']; subst.
  cbn [addall fold_left existsb]. fold (addall x fs (add_bytes f x l)). rewrite IH by exact ND'.
  assert (A : aget fid_eqb g (add_bytes f x l) = if fid_eqb g f then option_map (fun b => b ++ x) (aget fid_eqb g l) else aget fid_eqb g l).
  { unfold add_bytes. destruct (aget fid_eqb f l) as [b|] eqn:E.
    - destruct (fid_eqb g f) eqn:Q.
      + apply fid_eqb_eq in Q. subst g. rewrite (aget_put_same _ fid_eqb_eq), E. reflexivity.
      + rewrite (aget_put_other _ fid_eqb_eq); [reflexivity|]. intros Z. apply fid_eqb_eq in Z. congruence.
    - destruct (fid_eqb g f) eqn:Q; [|reflexivity]. apply fid_eqb_eq in Q. subst g. rewrite E. reflexivity. }
  rewrite A. destruct (fid_eqb g f) eqn:Q; cbn [orb]; [|reflexivity].
  apply fid_eqb_eq in Q. subst g. destruct (existsb (fid_eqb f) fs) eqn:X; [|reflexivity].
  exfalso. apply existsb_exists in X as (y & I & Q). apply fid_eqb_eq in Q. subst y. contradiction.
Qed.
Definition delall (fs : list fid) (l : list (fid * bytes)) : list (fid * bytes) := fold_left (fun l f => adel fid_eqb f l) fs l.
Lemma delall_get fs : forall l g, aget fid_eqb g (delall fs l) = if existsb (fid_eqb g) fs then None else aget fid_eqb g l.
Proof.
  induction fs as [|f fs IH]; intros l g; [reflexivity|]. cbn [delall fold_left existsb]. fold (delall fs (adel fid_eqb f l)). rewrite IH.
  destruct (fid_eqb g f) eqn:Q; cbn [orb].
  - apply fid_eqb_eq in Q. subst g. rewrite (aget_del_same fid_eqb). destruct (existsb _ fs); reflexivity.
  - rewrite (aget_del_other _ fid_eqb_eq); [reflexivity|]. intros Z. apply fid_eqb_eq in Z. congruence.
Qed.

Definition run (steps : list (udisk -> udisk)) (d : udisk) : udisk := fold_left (fun d f => f d) steps d.
Lemma run_app a b d : run (a ++ b) d = run b (run a d).
Proof. apply fold_left_app. Qed.
Lemma run_old (f : fid -> list (fid * bytes) -> list (fid * bytes)) fs : forall d,
  run (map (fun x => on_old (f x)) fs) d = on_old (fun l => fold_left (fun l x => f x l) fs l) d.
Proof.
  induction fs as [|x fs IH]; intros d; [destruct d; reflexivity|]. cbn [map run fold_left]. fold (run (map (fun x => on_old (f x)) fs) (on_old (f x) d)).
  rewrite IH. destruct d; reflexivity.
Qed.
Lemma run_events es : forall d l c, u_log d = Some (LgNew l c) ->
  run (map new_event es) d = mk_ud (u_sys d) (Some (LgNew (l ++ es) c)) (u_old d) (u_new d).
Proof.
  induction es as [|e es IH]; intros d l c E.
  - rewrite app_nil_r. destruct d; cbn in *. rewrite E. reflexivity.
  - cbn [map run fold_left]. fold (run (map new_event es) (new_event e d)).
    rewrite (IH (new_event e d) (l ++ [e]) c); [|unfold new_event; cbn [u_log]; rewrite E; reflexivity].
    rewrite <- app_assoc. reflexivity.
Qed.

(** a prefix of two lists one after the other *)
Lemma firstn_cases {A} j (a b : list A) :
  (exists i, (i < List.length a)%nat /\ j = i /\ firstn j (a ++ b) = firstn i a) \/
  (exists i, j = (List.length a + i)%nat /\ firstn j (a ++ b) = a ++ firstn i b).
Proof.
  destruct (Nat.lt_ge_cases j (List.length a)) as [L|L].
  - left. exists j. split; [exact L|]. split; [reflexivity|]. rewrite firstn_app. replace (j - List.length a)%nat with 0%nat by lia.
    rewrite firstn_O. apply app_nil_r.
  - right. exists (j - List.length a)%nat. split; [lia|]. rewrite firstn_app. rewrite firstn_all2 by lia. reflexivity.
Qed.

(** ** Interruptions *)
(** the data files of a namespace *)
Definition files_of (n : ns) (ids : list ent) : list fid :=
  flat_map (fun id => match file_of n id with Some (f, _) => [f] | None => [] end) ids.
Lemma files_of_in n ids f : In f (files_of n ids) <-> exists id lay, In id ids /\ file_of n id = Some (f, lay).
Proof.
  unfold files_of. rewrite in_flat_map. split.
  - intros (id & I & H). destruct (file_of n id) as [[g lay]|] eqn:E; [|destruct H]. destruct H as [<-|[]]. eauto.
  - intros (id & lay & I & E). exists id. split; [exact I|]. rewrite E. left. reflexivity.
Qed.
Lemma file_of_id n id f lay : file_of n id = Some (f, lay) -> id = (fst (fst f), fst (snd f)).
Proof.
  unfold file_of. destruct id as [a b]. cbn [fst snd]. destruct (aget bseq a (n_spaces n)); [|discriminate].
  destruct (aget ent_eqb (a, b) (n_models n)); [|discriminate]. intros H. inversion H. reflexivity.
Qed.
Lemma files_of_nodup n ids : NoDup ids -> NoDup (files_of n ids).
Proof.
  induction 1 as [|id ids NI ND IH]; [constructor|]. cbn [files_of flat_map]. fold (files_of n ids).
  destruct (file_of n id) as [[f lay]|] eqn:E; [|exact IH]. cbn [app]. constructor; [|exact IH].
  intros I. apply files_of_in in I as (id' & lay' & I & E'). apply file_of_id in E. apply file_of_id in E'. congruence.
Qed.
Lemma file_of_users us n id : file_of (add_users us n) id = file_of n id.
Proof.
  unfold file_of. assert (H : n_spaces (add_users us n) = n_spaces n /\ n_models (add_users us n) = n_models n).
  { unfold add_users. revert n. induction us as [|u us IH]; intros n; [split; reflexivity|]. cbn [fold_left].
    destruct (IH (match aget bseq (fst u) (n_users n) with Some _ => n | None => set_users (aput bseq (fst u) (snd u) (n_users n)) n end)) as [-> ->].
    destruct (aget bseq (fst u) (n_users n)); split; reflexivity. }
  destruct H as [-> ->]. reflexivity.
Qed.
Lemma existsb_fid f fs : existsb (fid_eqb f) fs = true <-> In f fs.
Proof.
  rewrite existsb_exists. split; [intros (x & I & E); apply fid_eqb_eq in E; subst; exact I|].
  intros I. exists f. split; [exact I | apply fid_eqb_eq; reflexivity].
Qed.

Section Interrupt.
Variables (utf8 : bytes -> bool) (crc32 : bytes -> N) (cap : nat) (ids : ns -> list ent) (d : udisk) (es : list gns_event)
  (us : list (bytes * bytes)) (ops : ent -> list fop) (n : ns) (l : list lop).
Hypothesis cap_pos : (0 < cap)%nat.
Hypothesis od : old_dir utf8 crc32 ids d es us ops n.
Hypothesis lg : u_log d = Some (LgOld (closed_log crc32 l)).
Hypothesis lok : Forall (lop_ok crc32) l.
Hypothesis llen : N.of_nat (List.length l) + 1 < two64.
Hypothesis lpay : payloads l = map ev_payload es.
Let dl := fold_left sds_event es [].
Let id := N.of_nat (List.length l).

Lemma log_fed : fed (v1_upd utf8) (payloads l) (ns_empty, []) = Some (n, dl).
Proof. rewrite lpay. destruct od. apply v1_upd_fed; assumption. Qed.

(** up with everything *)
Definition up_all (r : started) : Prop :=
  exists ts, r = StUp (add_users us n) ts /\ map fst ts = ids n /\ Forall (fun it => table_holds n dl ops (fst it) (snd it)) ts.

Lemma start_closed d' l' st : u_sys d' = u_sys d -> u_log d' = Some (LgOld (closed_log crc32 l')) ->
  l' = l \/ l' = l ++ [LRestart] ->
  Forall (fun i => fstate_holds utf8 n dl (u_old d') ops i (st i)) (ids n) ->
  (start utf8 crc32 cap ids d' = StErr /\ Exists (fun i => st i <> FsGood) (ids n)) \/
  (Forall (fun i => st i = FsGood) (ids n) /\ up_all (start utf8 crc32 cap ids d')).
Proof.
  intros S L LL F. unfold start. destruct od as [_ _ _ _ (o1 & o2 & sc & sv & rest & SY & SW) RT _ _ _]. rewrite S, SY. unfold load_old. rewrite L.
  rewrite (C83_log_read_exactly crc32 cap _ (v1_upd utf8) l' (ns_empty, []) (n, dl)); auto.
  - rewrite S, SY. destruct (load_tables_states utf8 n dl (u_old d') ops (ids n) st F) as [[E X] | (G & ts & E & M & T)]; rewrite E.
    + left. split; [reflexivity | exact X].
    + right. split; [exact G|]. exists ts. rewrite C80_accounts_read_exactly by assumption. split; [reflexivity|]. split; assumption.
  - destruct LL as [-> | ->]; [exact lok|]. apply Forall_app. split; [exact lok | repeat constructor].
  - destruct LL as [-> | ->]; [lia|]. rewrite app_length. cbn [List.length]. lia.
  - destruct LL as [-> | ->]; [apply log_fed|]. unfold payloads. rewrite flat_map_app. cbn [flat_map app]. rewrite app_nil_r. apply log_fed.
Qed.

Lemma start_open d' : u_sys d' = u_sys d -> u_log d' = Some (LgOld (closed_log crc32 l ++ v_mark id SRC_REOPENED)) ->
  start utf8 crc32 cap ids d' = StErr.
Proof.
  intros S L. unfold id in L. unfold start. destruct od as [_ _ _ _ (o1 & o2 & sc & sv & rest & SY & SW) RT _ _ _]. rewrite S, SY. unfold load_old. rewrite L.
  rewrite (open_log_refused crc32 cap _ (v1_upd utf8) l (ns_empty, []) (n, dl)); auto. apply log_fed.
Qed.

Variables fs fs2 fs3 : list fid.
Hypothesis p1 : Permutation fs (files_of n (ids n)).
Hypothesis p2 : Permutation fs2 (files_of n (ids n)).
Hypothesis p3 : Permutation fs3 (files_of n (ids n)).

Lemma ids_nodup : NoDup (ids n).
Proof.
  destruct od as [_ _ _ R _ _ _ PI _]. apply (Permutation_NoDup (l := akeys (n_models n))); [apply Permutation_sym, PI|].
  apply (ng_md _ (replay_good _ _ _ ns_good_empty R)).
Qed.
Lemma fs_nodup f : Permutation f (files_of n (ids n)) -> NoDup f.
Proof. intros P. apply (Permutation_NoDup (l := files_of n (ids n))); [apply Permutation_sym, P | apply files_of_nodup, ids_nodup]. Qed.
Lemma nodup_firstn {A} i (l0 : list A) : NoDup l0 -> NoDup (firstn i l0).
Proof.
  intros ND. rewrite <- (firstn_skipn i l0) in ND. remember (firstn i l0) as a. remember (skipn i l0) as b. clear - ND.
  induction a as [|x a IH]; [constructor|]. cbn [app] in ND. inversion ND; subst. constructor; [|auto]. intros I. apply H1, in_or_app. auto.
Qed.

(** the files while they are closed, and while they are moved *)
Definition files4 (i : nat) := addall [MK_CLOSED] (firstn i fs2) (addall [MK_REOPEN] fs (u_old d)).
Definition st4 (i : nat) (e : ent) : fstate :=
  match file_of n e with Some (f, _) => if existsb (fid_eqb f) (firstn i fs2) then FsGood else FsOpen | None => FsGone end.
Definition st5 (i : nat) (e : ent) : fstate :=
  match file_of n e with Some (f, _) => if existsb (fid_eqb f) (firstn i fs3) then FsGone else FsGood | None => FsGone end.

Lemma files4_get e f lay i : In e (ids n) -> file_of n e = Some (f, lay) -> file_holds utf8 n dl (u_old d) ops e ->
  aget fid_eqb f (files4 i) = Some (if existsb (fid_eqb f) (firstn i fs2) then closed_data (ops e ++ [FRestart]) else closed_data (ops e) ++ [MK_REOPEN]).
Proof.
  intros I E (f0 & lay0 & E0 & G & _). rewrite E in E0. inversion E0; subst f0 lay0.
  unfold files4. rewrite addall_get by apply nodup_firstn, (fs_nodup _ p2). rewrite addall_get by apply (fs_nodup _ p1). rewrite G.
  assert (X : existsb (fid_eqb f) fs = true).
  { apply existsb_fid. eapply Permutation_in; [apply Permutation_sym, p1|]. apply files_of_in. eauto. }
  rewrite X. cbn [option_map]. destruct (existsb (fid_eqb f) (firstn i fs2)); [|reflexivity]. rewrite closed_data_again. reflexivity.
Qed.

Lemma good_again e f lay files : In e (ids n) -> file_holds utf8 n dl (u_old d) ops e -> file_of n e = Some (f, lay) ->
  aget fid_eqb f files = Some (closed_data (ops e ++ [FRestart])) ->
  fstate_holds utf8 n dl files ops e FsGood.
Proof.
  intros I (f0 & lay0 & E0 & G & W & S & FT & DL) E A. cbn [fstate_holds]. exists (fun i => ops i ++ [FRestart]).
  split; [intros; apply batches_again|]. rewrite E in E0. inversion E0; subst f0 lay0. exists f, lay. rewrite batches_again.
  split; [exact E|]. split; [exact A|]. split; [apply Forall_app; split; [exact W | repeat constructor]|]. auto.
Qed.

Lemma states4 i : Forall (fun e => fstate_holds utf8 n dl (files4 i) ops e (st4 i e)) (ids n).
Proof.
  apply Forall_forall. intros e I. destruct od as [_ _ _ _ _ _ _ _ FH]. rewrite Forall_forall in FH. specialize (FH e I). fold dl in FH.
  pose proof FH as (f & lay & E & _). unfold st4. rewrite E. pose proof (files4_get e f lay i I E FH) as G.
  destruct (existsb (fid_eqb f) (firstn i fs2)).
  - eapply good_again; eauto.
  - cbn [fstate_holds]. exists f, lay, (u_old d). auto.
Qed.
Lemma states5 i : Forall (fun e => fstate_holds utf8 n dl (delall (firstn i fs3) (files4 (List.length fs2))) ops e (st5 i e)) (ids n).
Proof.
  apply Forall_forall. intros e I. destruct od as [_ _ _ _ _ _ _ _ FH]. rewrite Forall_forall in FH. specialize (FH e I). fold dl in FH.
  pose proof FH as (f & lay & E & _). unfold st5. rewrite E.
  destruct (existsb (fid_eqb f) (firstn i fs3)) eqn:X.
  - cbn [fstate_holds]. exists f, lay. split; [exact E|]. rewrite delall_get, X. reflexivity.
  - eapply good_again; eauto. rewrite delall_get, X. rewrite (files4_get e f lay _ I E FH).
    assert (Y : existsb (fid_eqb f) (firstn (List.length fs2) fs2) = true).
    { rewrite firstn_all. apply existsb_fid. eapply Permutation_in; [apply Permutation_sym, p2|]. apply files_of_in. eauto. }
    rewrite Y. reflexivity.
Qed.

Variables (nn : ns) (sps : list (bytes * mspace)) (mds : list (ent * mmodel)) (us3 : list (bytes * bytes)) (batch_of : ent -> batch).
Let steps := upgrade_steps id fs fs2 fs3 nn sps mds us3 batch_of.
(** the number of changes after which the old directory is gone and the new log not yet there *)
Definition window : nat := (1 + List.length fs + 1 + List.length fs2 + List.length fs3 + 2)%nat.

(** the new log once it exists *)
Lemma run_new_log sts : forall d0 el c, Forall (fun s => exists e f, s = new_event e \/ s = on_new f) sts ->
  u_log d0 = Some (LgNew el c) -> u_sys d0 = None -> exists el', u_log (run sts d0) = Some (LgNew el' c) /\ u_sys (run sts d0) = None.
Proof.
  induction sts as [|s sts IH]; intros d0 el c F L S; [eauto|]. inversion F as [|? ? F1 F2]; subst. cbn [run fold_left]. fold (run sts (s d0)).
  destruct F1 as (e & f & [-> | ->]); (eapply IH; [exact F2 | | exact S]).
  - unfold new_event. cbn [u_log]. rewrite L. reflexivity.
  - exact L.
Qed.

Theorem interrupted j : let r := start utf8 crc32 cap ids (after_steps steps j d) in
  (r = StErr /\ j <> window) \/ (r = StNew /\ j = window) \/ (up_all r /\ j <> window).
Proof.
  cbv zeta. unfold after_steps. fold (run (firstn j steps) d). unfold steps, upgrade_steps.
  match goal with |- context [firstn j (?a ++ ?b)] => destruct (firstn_cases j a b) as [(i & Li & Hj & ->) | (i & Hj & ->)] end.
  { (* nothing done *) cbn [List.length] in Li. assert (Z0 : i = 0%nat) by lia. rewrite Z0. cbn [firstn run fold_left].
    destruct (start_closed d l (fun _ => FsGood)) as [[_ X] | [_ U]]; auto.
    - destruct od as [_ _ _ _ _ _ _ _ FH]. eapply Forall_impl; [|exact FH]. cbn [fstate_holds]. eauto.
    - exfalso. apply Exists_exists in X as (x & _ & X). congruence.
    - right. right. split; [exact U|]. unfold window. lia. }
  rewrite run_app. cbn [List.length] in Hj.
  set (d1 := run [_] d).
  assert (D1 : d1 = mk_ud (u_sys d) (Some (LgOld (closed_log crc32 l ++ v_mark id SRC_REOPENED))) (u_old d) (u_new d)).
  { unfold d1. cbn [run fold_left]. unfold on_log. rewrite lg. reflexivity. }
  clearbody d1.
  match goal with |- context [firstn i (?a ++ ?b)] => destruct (firstn_cases i a b) as [(i2 & Li2 & Hj2 & ->) | (i2 & Hj2 & ->)] end.
  { rewrite map_length in Li2. left. rewrite firstn_map, (run_old (fun f => add_bytes f [MK_REOPEN])). split; [|unfold window; lia].
    apply start_open; subst d1; reflexivity. }
  rewrite run_app, (run_old (fun f => add_bytes f [MK_REOPEN])). rewrite map_length in Hj2.
  set (d2 := on_old _ d1).
  assert (D2 : d2 = mk_ud (u_sys d) (Some (LgOld (closed_log crc32 l ++ v_mark id SRC_REOPENED))) (addall [MK_REOPEN] fs (u_old d)) (u_new d)).
  { subst d1. reflexivity. }
  clearbody d2.
  match goal with |- context [firstn i2 (?a ++ ?b)] => destruct (firstn_cases i2 a b) as [(i3 & Li3 & Hj3 & ->) | (i3 & Hj3 & ->)] end.
  { cbn [List.length] in Li3. assert (Z0 : i3 = 0%nat) by lia. rewrite Z0. cbn [firstn run fold_left].
    left. split; [|unfold window; lia]. apply start_open; subst d2; reflexivity. }
  rewrite run_app. cbn [List.length] in Hj3. set (d3 := run [_] d2).
  assert (D3 : d3 = mk_ud (u_sys d) (Some (LgOld (closed_log crc32 (l ++ [LRestart])))) (addall [MK_REOPEN] fs (u_old d)) (u_new d)).
  { unfold d3. subst d2. cbn [run fold_left]. unfold on_log. cbn [u_log u_sys u_old u_new]. unfold id. rewrite closed_log_again. reflexivity. }
  clearbody d3.
  match goal with |- context [firstn i3 (?a ++ ?b)] => destruct (firstn_cases i3 a b) as [(i4 & Li4 & Hj4 & ->) | (i4 & Hj4 & ->)] end.
  { rewrite map_length in Li4. rewrite firstn_map, (run_old (fun f => add_bytes f [MK_CLOSED])).
    assert (W : j <> window) by (unfold window; lia).
    destruct (start_closed (on_old (fun l0 => fold_left (fun l1 x => add_bytes x [MK_CLOSED] l1) (firstn i4 fs2) l0) d3) (l ++ [LRestart]) (st4 i4)) as [[E _] | [_ U]].
    - subst d3. reflexivity. - subst d3. reflexivity. - auto.
    - subst d3. exact (states4 i4).
    - left. split; assumption.
    - right. right. split; assumption. }
  rewrite run_app, (run_old (fun f => add_bytes f [MK_CLOSED])). rewrite map_length in Hj4. set (d4 := on_old _ d3).
  assert (D4 : d4 = mk_ud (u_sys d) (Some (LgOld (closed_log crc32 (l ++ [LRestart])))) (files4 (List.length fs2)) (u_new d)).
  { unfold d4, files4. subst d3. rewrite firstn_all. reflexivity. }
  clearbody d4.
  match goal with |- context [firstn i4 (?a ++ ?b)] => destruct (firstn_cases i4 a b) as [(i5 & Li5 & Hj5 & ->) | (i5 & Hj5 & ->)] end.
  { rewrite map_length in Li5. rewrite firstn_map, (run_old (adel fid_eqb)).
    assert (W : j <> window) by (unfold window; lia).
    destruct (start_closed (on_old (fun l0 => fold_left (fun l1 x => adel fid_eqb x l1) (firstn i5 fs3) l0) d4) (l ++ [LRestart]) (st5 i5)) as [[E _] | [_ U]].
    - subst d4. reflexivity. - subst d4. reflexivity. - auto.
    - subst d4. exact (states5 i5).
    - left. split; assumption.
    - right. right. split; assumption. }
  rewrite run_app, (run_old (adel fid_eqb)). rewrite map_length in Hj5. set (d5 := on_old _ d4).
  assert (D5 : d5 = mk_ud (u_sys d) (Some (LgOld (closed_log crc32 (l ++ [LRestart])))) (delall fs3 (files4 (List.length fs2))) (u_new d)).
  { unfold d5. subst d4. reflexivity. }
  clearbody d5.
  assert (SY : exists b, u_sys d = Some b) by (destruct od as [_ _ _ _ (o1 & o2 & sc & sv & rest & SY & SW) _ _ _ _]; eauto).
  destruct SY as [sb SY].
  match goal with |- context [firstn i5 (?a ++ ?b)] => destruct (firstn_cases i5 a b) as [(i6 & Li6 & Hj6 & ->) | (i6 & Hj6 & ->)] end.
  { cbn [List.length] in Li6. assert (Z0 : i6 = 0%nat) by lia. rewrite Z0. cbn [firstn run fold_left].
    assert (W : j <> window) by (unfold window; lia).
    destruct (start_closed d5 (l ++ [LRestart]) (st5 (List.length fs3))) as [[E _] | [_ U]].
    - subst d5. reflexivity. - subst d5. reflexivity. - auto.
    - subst d5. pose proof (states5 (List.length fs3)) as Z. rewrite firstn_all in Z. exact Z.
    - left. split; assumption.
    - right. right. split; assumption. }
  rewrite run_app. cbn [List.length] in Hj6.
  match goal with |- context [firstn i6 (?a ++ ?b)] => destruct (firstn_cases i6 a b) as [(i7 & Li7 & Hj7 & ->) | (i7 & Hj7 & ->)] end.
  { cbn [List.length] in Li7. assert (Z0 : i7 = 0%nat) by lia. rewrite Z0. cbn [firstn run fold_left].
    left. split; [|unfold window; lia]. subst d5. unfold start. cbn [u_sys]. rewrite SY. reflexivity. }
  rewrite run_app. cbn [List.length] in Hj7.
  match goal with |- context [firstn i7 (?a ++ ?b)] => destruct (firstn_cases i7 a b) as [(i8 & Li8 & Hj8 & ->) | (i8 & Hj8 & ->)] end.
  { cbn [List.length] in Li8. assert (Z0 : i8 = 0%nat) by lia. rewrite Z0. cbn [firstn run fold_left].
    right. left. split; [|unfold window; lia]. subst d5. reflexivity. }
  rewrite run_app. cbn [List.length] in Hj8. left. split; [|unfold window; lia].
  match goal with |- context [run (firstn i8 ?sts) ?dd] => destruct (run_new_log (firstn i8 sts) dd [] false) as (el & L & S) end.
  - apply Forall_forall. intros s I.
    assert (I2 : forall k (q : list (udisk -> udisk)) x, In x (firstn k q) -> In x q).
    { clear. intros k q x. rewrite <- (firstn_skipn k q) at 2. intros. apply in_or_app. auto. }
    apply I2 in I. rewrite !in_app_iff in I. destruct I as [I | [I | I]].
    + apply in_map_iff in I as (x & <- & _). exists (ev_space x), (fun l => l). auto.
    + apply in_flat_map in I as (km & _ & I). destruct (file_of nn (fst km)) as [[f lay]|]; [|destruct I].
      destruct I as [<- | [<- | [<- | []]]].
      * exists (ev_model nn km), (fun l0 => l0 ++ [(f, [])]). auto.
      * exists (ev_model nn km), (fun l0 => l0). auto.
      * exists (ev_model nn km), (add_batch f (batch_of (fst km))). auto.
    + apply in_map_iff in I as (x & <- & _). exists (ev_user x), (fun l => l). auto.
  - reflexivity.
  - reflexivity.
  - unfold start. rewrite S, L. reflexivity.
Qed.
End Interrupt.
