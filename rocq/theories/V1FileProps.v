(** C80 and C84, data files and accounts: what the reader of the old data files does. *)
From Coq Require Import Strings.String List NArith Bool Lia Permutation.
From Verif Require Import Bytes AMap DataModel CodecModel CodecProofs CodecProps CrcModel GnsCodecModel GnsModel GnsProofs RowModel
  BatchModel BatchCodec BatchProofs V1Model V1Spec V1FileProofs UpgradeModel UpgradeSpec UpgradeProofs RowProps BatchProps.
Import ListNotations.
Local Open Scope N_scope.

(** C80: reading a data file of the old format, with any failed writes and any number of sessions in it,
    applies exactly its batches, in order. *)
Theorem C80_data_file_read_exactly : forall utf8 l s, Forall (fop_wf utf8) l ->
  v1_read_file utf8 v1_apply s (closed_data l) =
  match v1_apply_all s (batches l) with None => VrDie | Some s' => VrOk s' end.
Proof.
  intros utf8 l s W. rewrite read_closed_data by exact W.
  assert (E : forall bs s, fold_batches _ v1_apply s bs = v1_apply_all s bs).
  { clear. induction bs as [|b bs IH]; intros s; [reflexivity|]. cbn [fold_batches v1_apply_all].
    destruct (v1_apply s (fst b) (snd b)); [apply IH | reflexivity]. }
  rewrite E. reflexivity.
Qed.
Print Assumptions C80_data_file_read_exactly.

Lemma maxd_lt r l : forall a, (match maxd a l with Some d => d < r | None => True end) <->
  (match a with Some d => d < r | None => True end) /\ Forall (fun d => d < r) l.
Proof.
  induction l as [|x l IH]; intros a.
  - cbn [maxd fold_left]. split; [auto|]. tauto.
  - change (maxd a (x :: l)) with (maxd (maxd a [x]) l). rewrite IH, Forall_cons_iff. cbn [maxd fold_left].
    destruct a as [y|]; [|tauto]. destruct (N.ltb_spec x y) as [LT|LT]; split; intros H.
    1, 3: destruct H as [H1 H2]; (split; [lia|]; split; [lia | exact H2]).
    all: destruct H as (H1 & H2 & H3); (split; [lia | exact H3]).
Qed.

(** C80: the meaning of one batch for every key: the newest of the row and the changes, unless a deletion
    is at least as new. *)
Theorem C80_batch_meaning : forall sv es s t s', rinv s t -> fits (List.length (col_names (m_lay s))) es ->
  v1_apply s sv es = Some s' ->
  forall k, exists w, newest (List.length (col_names (m_lay s))) (view s k) (puts_of k es) w /\
    match w with
    | None => view s' k = None
    | Some (r, cs) =>
        (Forall (fun d => d < r) (dels_of k es) /\ view s' k = w) \/
        (Exists (fun d => r <= d) (dels_of k es) /\ view s' k = None)
    end.
Proof.
  intros sv es s t s' R F E k. destruct (v1_apply_exact sv es s t R F) as [(_ & s2 & E2 & _ & _ & _ & _ & _ & _ & _ & V & _) | (E2 & _)]; [|congruence].
  rewrite E in E2. inversion E2; subst s2. rewrite V. eexists. split; [apply vwin_newest|]. unfold v1_value.
  destruct (fold_left (vwin _) (puts_of k es) (view s k)) as [[r cs]|]; [|destruct (maxd None (dels_of k es)); reflexivity].
  pose proof (maxd_lt r (dels_of k es) None) as M. cbv beta in M.
  destruct (maxd None (dels_of k es)) as [d|].
  - destruct (N.ltb_spec d r) as [L|L].
    + left. split; [apply M in L as [_ L]; exact L | reflexivity].
    + right. split; [|reflexivity]. apply Exists_exists.
      destruct (Exists_dec (fun d => r <= d) (dels_of k es)) as [X|X]; [intros x; destruct (r <=? x) eqn:Q; [left; apply N.leb_le, Q | right; intros Z; apply N.leb_le in Z; congruence] | apply Exists_exists in X; exact X|].
      exfalso. assert (d < r); [|lia]. apply M. split; [exact Logic.I|]. apply Forall_forall. intros x I.
      apply N.nle_gt. intros LE. apply X. apply Exists_exists. eauto.
  - left. split; [|reflexivity]. apply M. exact Logic.I.
Qed.
Print Assumptions C80_batch_meaning.

(** C80: a batch is applied, or the server crashes; the latter exactly when the batch deletes a key that
    has no row and that the batch does not change. *)
Theorem C80_batch_crash : forall sv es s t, rinv s t -> fits (List.length (col_names (m_lay s))) es ->
  (v1_apply s sv es = None <-> exists k, dels_of k es <> [] /\ view s k = None /\ puts_of k es = []).
Proof.
  intros sv es s t R F. destruct (v1_apply_exact sv es s t R F) as [(A & s2 & E2 & _) | (E2 & A)].
  - split; [congruence|]. intros (k & K1 & K2 & K3). destruct (A k K1); contradiction.
  - split; auto.
Qed.
Print Assumptions C80_batch_crash.

(** C80: when the changes are in the order they were made, the rows are what the changes made of them. *)
Theorem C80_rows_latest_change : forall sv es s t s', rinv s t -> fits (List.length (col_names (m_lay s))) es ->
  incr t (txns es) -> v1_apply s sv es = Some s' ->
  forall k, view s' k = kfold (List.length (col_names (m_lay s))) k es (view s k).
Proof.
  intros sv es s t s' R F I E k. destruct (v1_apply_exact sv es s t R F) as [(_ & s2 & E2 & _ & _ & _ & _ & _ & _ & _ & V & _) | (E2 & _)]; [|congruence].
  rewrite E in E2. inversion E2; subst s2. rewrite V. apply (v1_value_seq _ _ _ t); [|exact I].
  intros r cs H. unfold view in H. destruct (aget pkey_eqb k (m_idx s)) as [i|]; [|discriminate H].
  destruct (nth_error (m_objs s) i) as [o|] eqn:EO; [|discriminate H]. inversion H; subst. apply (ri_rev _ _ R _ _ EO).
Qed.
Print Assumptions C80_rows_latest_change.

(** an example: two sessions, a failed write; key 2 deleted and key 3 changed twice *)
Definition xf_cells (v : N) : list cell := [CQw QU8 v; CNull; CList []].
Definition xf_b1 : batch := mk_batch 3 TuUInt 0 3
  [mk_bev DkInsert 1 (PkUInt 1) (xf_cells 11); mk_bev DkInsert 2 (PkUInt 2) (xf_cells 12); mk_bev DkInsert 3 (PkUInt 3) (xf_cells 13)].
Definition xf_b2 : batch := mk_batch 5 TuUInt 0 3
  [mk_bev DkDelete 4 (PkUInt 2) []; mk_bev DkUpdate 5 (PkUInt 3) (xf_cells 15); mk_bev DkUpdate 6 (PkUInt 3) (xf_cells 16)].
Definition xf_ops : list fop := [FBatch xf_b1; FFailed; FRestart; FBatch xf_b2].
Example C80_file_example : Forall (fop_wf (fun _ => true)) xf_ops /\
  rinv (base_of ex_lay []) 0 /\ fits (List.length (col_names ex_lay)) (ba_evs xf_b1) /\
  exists s, v1_read_file (fun _ => true) v1_apply (base_of ex_lay []) (closed_data xf_ops) = VrOk s /\
  map (view s) [PkUInt 1; PkUInt 2; PkUInt 3] = [Some (1, xf_cells 11); None; Some (6, xf_cells 16)].
Proof.
  split; [repeat constructor; vm_compute; intros; congruence|].
  split; [apply base_rinv; [apply ex_lay_ok | constructor | intros f []]|].
  split; [repeat constructor|].
  rewrite C80_data_file_read_exactly by (repeat constructor; vm_compute; intros; congruence).
  eexists. split; vm_compute; reflexivity.
Qed.
Example C80_crash_example : v1_apply (base_of ex_lay []) 0 [mk_bev DkDelete 4 (PkUInt 2) []] = None.
Proof. reflexivity. Qed.

Lemma take_one k e : dict_take k [(k, e)] = Some (e, []).
Proof. unfold dict_take, adel. cbn [aget filter fst]. rewrite bseq_refl. reflexivity. Qed.
Lemma take_two o k1 e1 k2 e2 : bseq k1 k2 = false ->
  dict_take k1 (two o (k1, e1) (k2, e2)) = Some (e1, [(k2, e2)]).
Proof.
  intros H. unfold dict_take, adel. destruct o; cbn [two aget filter fst]; rewrite ?bseq_refl, ?H; cbn [negb filter fst]; rewrite ?H, ?bseq_refl; reflexivity.
Qed.

(** C80: the account file is read back exactly. *)
Theorem C80_accounts_read_exactly : forall utf8 o1 o2 us sc sv rest,
  dict_wf utf8 (sysdb_dict o1 o2 us sc sv) -> In root_account (map fst us) ->
  sysdb_restore utf8 (enc_dict_full (sysdb_dict o1 o2 us sc sv) ++ rest) = VrOk (us, sc, sv).
Proof.
  intros utf8 o1 o2 us sc sv rest W R. unfold sysdb_restore. rewrite (proj1 (C02_dict_roundtrip _ _ rest W)).
  assert (U : users_of (map (fun kv => (fst kv, DData (CList [CBin (snd kv)]))) us) = Some us).
  { clear. induction us as [|[a b] us IH]; [reflexivity|]. cbn [map users_of as_user fst snd]. rewrite IH. reflexivity. }
  assert (RA : aget bseq root_account us <> None).
  { intros N. apply (aget_none _ bseq_eq) in N. apply N. exact R. }
  unfold sysdb_parse, sysdb_dict. rewrite take_two by reflexivity. cbn [as_dict]. rewrite take_one. cbn [as_dict].
  rewrite take_one. cbn [as_dict]. rewrite U, take_two by reflexivity. cbn [as_uint]. rewrite take_one. cbn [as_uint].
  destruct (aget bseq root_account us); congruence.
Qed.
Print Assumptions C80_accounts_read_exactly.

Definition xf_users : list (bytes * bytes) := [(bstr "root", bstr "hash1"); (bstr "bob", bstr "hash2")].
Example C80_accounts_example : dict_wf (fun _ => true) (sysdb_dict false true xf_users 3 0) /\
  In root_account (map fst xf_users) /\
  sysdb_restore (fun _ => true) (enc_dict_full (sysdb_dict false true xf_users 3 0)) = VrOk (xf_users, 3, 0).
Proof.
  split; [|split; [left; reflexivity | vm_compute; reflexivity]].
  vm_compute. repeat (constructor; try reflexivity); intros H; repeat (destruct H as [H|H]; [discriminate H|]); destruct H.
Qed.

(** C84, data files: a data file that lost its end is refused, or is the file of an earlier shutdown,
    provided that no batch contains the byte FF. *)
Theorem C84_data_cut_partial : forall utf8 l s p q s', Forall (fop_wf utf8) l -> Forall fop_free l ->
  closed_data l = p ++ q -> q <> [] ->
  v1_read_file utf8 v1_apply s p = VrOk s' ->
  exists l1 l2, l = l1 ++ FRestart :: l2 /\ p = closed_data l1 /\ v1_apply_all s (batches l1) = Some s'.
Proof.
  intros utf8 l s p q s' W F E Q R. pose proof R as R0. unfold v1_read_file in R.
  destruct (p_file_cut utf8 v1_apply l s s' p q _ W F E Q R) as (l1 & l2 & E1 & E2).
  exists l1, l2. split; [exact E1|]. split; [exact E2|]. rewrite E2, C80_data_file_read_exactly in R0.
  - destruct (v1_apply_all s (batches l1)); congruence.
  - rewrite E1 in W. apply Forall_app in W as [W _]. exact W.
Qed.
Print Assumptions C84_data_cut_partial.

(** The bytes themselves (storage/v1/raw/batch_jrnl/mod.rs:31-40): the markers of a failed write, a shutdown and a start, and a batch of one deletion. *)
Example C84_data_bytes : closed_data [FFailed; FRestart] = [xff; xfc; xfb; xfc] /\
  firstn 27 (closed_data [FBatch (mk_batch 1 TuUInt 0 3 [mk_bev DkDelete 7 (PkUInt 2) []])]) =
    [xfe; x00; x01; x00; x00; x00; x00; x00; x00; x00; x00; x00; x00; x00; x00; x00; x00; x00; x03; x00; x00; x00; x00; x00; x00; x00; x00] /\
  nth_error (closed_data [FBatch (mk_batch 1 TuUInt 0 3 [mk_bev DkDelete 7 (PkUInt 2) []])]) 43 = Some xfd.
Proof. vm_compute. repeat split; reflexivity. Qed.

(** Every byte string gets an answer. *)
Theorem C84_data_answer : forall utf8 s l, v1_read_file utf8 v1_apply s l <> VrFuel.
Proof. intros utf8 s l. unfold v1_read_file. apply p_file_ends. lia. Qed.
Print Assumptions C84_data_answer.

Definition is_ok {A} (r : vres A) : bool := match r with VrOk _ => true | _ => false end.
Example C84_data_example : Forall (fop_wf (fun _ => true)) xf_ops /\ existsb (beq MK_RECOVERY) (v1_batch_bytes xf_b1 ++ v1_batch_bytes xf_b2) = false /\
  filter (fun k => is_ok (v1_read_file (fun _ => true) v1_apply (base_of ex_lay []) (firstn k (closed_data xf_ops))))
    (seq 0 (List.length (closed_data xf_ops))) = [List.length (closed_data [FBatch xf_b1; FFailed])] /\
  firstn (List.length (closed_data [FBatch xf_b1; FFailed])) (closed_data xf_ops) = closed_data [FBatch xf_b1; FFailed].
Proof. split; [repeat constructor; vm_compute; intros; congruence|]. split; [vm_compute; reflexivity|]. split; vm_compute; reflexivity. Qed.

(** Without the proviso it is false: a file that lost the end of its second batch is accepted, without
    that batch's row, when a key begins with the bytes FF FC. *)
Definition xf_key : batch := mk_batch 1 TuBin 0 0 [mk_bev DkInsert 9 (PkBin (MK_RECOVERY :: MK_CLOSED :: bstr "abcdefgh")) []].
Definition xf_first : batch := mk_batch 1 TuBin 0 0 [mk_bev DkInsert 1 (PkBin (bstr "one")) []].
Definition bin_lay : layout := mk_layout 7 (bstr "k") TsBin [(bstr "k", mk_field false [TsBin])].
Theorem C84_data_cut_refuted : exists l p q s', Forall (fop_wf (fun _ => true)) l /\ closed_data l = p ++ q /\ q <> [] /\
  (forall l1 l2, l <> l1 ++ FRestart :: l2) /\
  v1_read_file (fun _ => true) v1_apply (base_of bin_lay []) p = VrOk s' /\
  view s' (PkBin (bstr "one")) <> None /\ view s' (PkBin (MK_RECOVERY :: MK_CLOSED :: bstr "abcdefgh")) = None /\
  exists s, v1_read_file (fun _ => true) v1_apply (base_of bin_lay []) (closed_data l) = VrOk s /\
    view s (PkBin (MK_RECOVERY :: MK_CLOSED :: bstr "abcdefgh")) <> None.
Proof.
  set (l := [FBatch xf_first; FBatch xf_key]).
  set (n := (List.length (v1_batch_bytes xf_first) + 2 + 24 + 1 + 8 + 8 + 2)%nat).
  exists l, (firstn n (closed_data l)), (skipn n (closed_data l)). eexists.
  split; [repeat constructor; vm_compute; intros; congruence|].
  split; [symmetry; apply firstn_skipn|]. split; [vm_compute; congruence|].
  split; [intros [|? [|? [|? l1]]] l2 D; discriminate D|].
  split; [vm_compute; reflexivity|]. split; [vm_compute; congruence|]. split; [vm_compute; reflexivity|].
  eexists. split; [vm_compute; reflexivity|]. vm_compute. congruence.
Qed.
Print Assumptions C84_data_cut_refuted.
