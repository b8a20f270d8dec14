(** C116 and C117: data statements that run at the same time. *)
From Coq Require Import List NArith Bool Arith Lia Sorting.Sorted Permutation String.
From Verif Require Import Bytes AMap DataModel CodecModel DictModel TypeModel GnsCodecModel GnsModel RowModel RowProps ConcModel ConcSpec ConcProofs ConcScan ConcDisk ConcFile.
Import ListNotations.
Local Open Scope nat_scope.

(** ** C116: one order *)

(** whatever the statements are and however their steps are mixed: INSERT, UPDATE, DELETE and SELECT answer as if
    they had run one after the other, each at a moment between its beginning and its answer *)
Theorem C116_one_order : forall V F (app : F -> V -> V * bool) ord ls c, crun app ord cst0 ls = Some c -> exists L, explains app c L.
Proof. intros V F app ord ls c R. exact (explained V F app ord ls c R). Qed.

(** SELECT ALL: its keys are those of one moment, and each row is what the row was at some moment in between *)
Theorem C116_all_partial : forall V F (app : F -> V -> V * bool) ord, (forall l, Permutation (ord l) l) ->
  forall ls c i t a m, crun app ord cst0 ls = Some c -> nth_error (c_tasks c) i = Some t -> ct_st t = CAll -> ct_pc t = PDone a m ->
  exists l, a = CArows l /\ NoDup (map fst l) /\
    (exists n c0, moment app ord ls n c0 /\ ct_inv t <= n <= m /\ forall k, In k (map fst l) <-> mem c0 k <> None) /\
    (forall k x, In (k, x) l -> exists n c1, moment app ord ls n c1 /\ ct_inv t <= n <= m /\ mem c1 k = Some x).
Proof.
  intros V F app ord OP ls c i t a m R N SE PE. pose proof (si_ok _ _ _ _ _ _ (scan_run V F app ord OP ls c R) i t N) as K. unfold scan_ok in K. rewrite PE in K.
  destruct (K SE) as (_ & l & E & ND & SW & KS). exists l. split; [exact E|]. split; [exact ND|]. split; [exact KS|]. intros k x I. exact (SW (k, x) I).
Qed.

(** *** a small server: rows with one number *)
Definition cx_app := srv_app noarith (lo_fields ex_lay).
Definition cx_ord (l : list nat) : list nat := l.
Definition cx_row (n : N) : rfields := [(f_n, CQw QU8 n)].
Definition cx_set (n : N) : list assign := [mk_as f_n AAssign (LUInt n)].
Definition cx_k (n : N) : pkey := PkUInt n.
Definition cx_run := crun cx_app cx_ord cst0.
Definition cx_pcs (o : option (cst rfields (list assign))) : option (list (cpc rfields)) := option_map (fun c => map ct_pc (c_tasks c)) o.
Definition cx_ins (i : nat) (k n : N) : list (clab rfields (list assign)) := [LStart (CIns (cx_k k) (cx_row n)); LGo i; LGo i; LGo i].
Lemma cx_ord_perm l : Permutation (cx_ord l) l.
Proof. apply Permutation_refl. Qed.

(** an UPDATE fetches a row, a DELETE removes it and is answered, then the UPDATE succeeds: the order that explains
    it has the UPDATE first; a SELECT begun meanwhile finds nothing *)
Definition cx_late : list (clab rfields (list assign)) :=
  cx_ins 0 1 10 ++ [LStart (CUpd (cx_k 1) (cx_set 20)); LGo 1; LStart (CDel (cx_k 1)); LGo 2; LGo 2; LGo 2; LStart (CSel (cx_k 1)); LGo 3; LGo 1; LGo 1; LGo 1; LGo 1].
Example C116_one_order_ex : cx_pcs (cx_run cx_late) = Some [PDone CAok 3; PDone CAok 15; PDone CAok 9; PDone CAnone 11] /\
  in_turn cx_app (fun _ => None) [mk_eff 0 (CIns (cx_k 1) (cx_row 10)) CAok 2; mk_eff 1 (CUpd (cx_k 1) (cx_set 20)) CAok 8; mk_eff 2 (CDel (cx_k 1)) CAok 8; mk_eff 3 (CSel (cx_k 1)) CAnone 11].
Proof. split; [vm_compute; reflexivity|]. vm_compute. repeat split; reflexivity. Qed.

(** a SELECT ALL reads row 1, row 1 is updated and the answer given, then row 2 is updated, then row 2 is read: the
    answer has the later change but not the earlier one, and the rows were never so *)
Definition cx_scan : list (clab rfields (list assign)) :=
  cx_ins 0 1 10 ++ cx_ins 1 2 20 ++ [LStart CAll; LGo 2; LGo 2;
    LStart (CUpd (cx_k 1) (cx_set 11)); LGo 3; LGo 3; LGo 3; LGo 3; LGo 3; LStart (CUpd (cx_k 2) (cx_set 21)); LGo 4; LGo 4; LGo 4; LGo 4; LGo 4; LGo 2; LGo 2].
Definition cx_num (o : option rfields) : N := match o with Some [(_, CQw _ n)] => n | _ => 0 end.
Definition cx_never (ls : list (clab rfields (list assign))) (a b : N) : bool :=
  forallb (fun n => match cx_run (firstn n ls) with Some c => negb (N.eqb (cx_num (mem c (cx_k 1))) a && N.eqb (cx_num (mem c (cx_k 2))) b) | None => true end) (seq 0 (S (List.length ls))).
Theorem C116_all_refuted : exists ls c t m l, cx_run ls = Some c /\ nth_error (c_tasks c) 2 = Some t /\ ct_st t = CAll /\ ct_pc t = PDone (CArows l) m /\
  l = [(cx_k 1, cx_row 10); (cx_k 2, cx_row 21)] /\
  forall n c1, moment cx_app cx_ord ls n c1 -> ~ (mem c1 (cx_k 1) = Some (cx_row 10) /\ mem c1 (cx_k 2) = Some (cx_row 21)).
Proof.
  exists cx_scan. destruct (cx_run cx_scan) as [c|] eqn:R; [|exfalso; revert R; vm_compute; intros D; discriminate D]. exists c.
  assert (P : option_map (fun c => nth_error (c_tasks c) 2) (cx_run cx_scan) = Some (Some (mk_ct CAll 8 (PDone (CArows [(cx_k 1, cx_row 10); (cx_k 2, cx_row 21)]) 24)))) by (vm_compute; reflexivity).
  rewrite R in P. cbn in P. injection P as P. eexists _, _, _. split; [reflexivity|]. split; [exact P|]. split; [reflexivity|]. split; [reflexivity|]. split; [reflexivity|].
  intros n c1 [LE M] [A B]. assert (NV : cx_never cx_scan 10 21 = true) by (vm_compute; reflexivity). unfold cx_never in NV. rewrite forallb_forall in NV. specialize (NV n). 
  assert (I : In n (seq 0 (S (List.length cx_scan)))) by (apply in_seq; lia). specialize (NV I). unfold cx_run in NV. rewrite M, A, B in NV. discriminate NV.
Qed.
Example C116_all_ex : cx_pcs (cx_run cx_scan) = Some [PDone CAok 3; PDone CAok 7; PDone (CArows [(cx_k 1, cx_row 10); (cx_k 2, cx_row 21)]) 24; PDone CAok 16; PDone CAok 22].
Proof. vm_compute. reflexivity. Qed.

(** ** C117: the file *)

(** no DELETE overlaps an INSERT or UPDATE of the same row, and a refused UPDATE leaves the row: once everything is
    answered and written, a start of the server succeeds and brings back the rows as the statements left them,
    that is, as the one order of C116 leaves them. Missing for the full claim: overlapping DELETEs (refuted below), and C20. *)
Theorem C117_restart_partial : forall V F (app : F -> V -> V * bool) ord ls c, crun app ord cst0 ls = Some c ->
  (forall n c', moment app ord ls n c' -> calm c') ->
  (forall k f v y, In (LStart (CUpd k f)) ls -> app f v = (y, false) -> y = v) -> settled c ->
  exists t L, l_start (c_file c) = Some t /\ explains app c L /\ forall k, option_map fst (t k) = mem c k /\ option_map fst (t k) = final app (fun _ => None) L k.
Proof.
  intros V F app ord ls c R CA KP SE. destruct (settled_file V F app ord ls c R CA) as (t & E & P); [|exact SE|].
  { intros s I. unfold fine. destruct s as [k x|k f|k|k|]; try exact Logic.I. intros v y A. eapply KP; eassumption. }
  destruct (explained V F app ord ls c R) as (L & X). exists t, L. split; [exact E|]. split; [exact X|]. intros k. split; [apply P|]. rewrite P. symmetry. apply X.
Qed.

(** *** a calm history: two INSERTs of a row, UPDATEs and SELECTs at the same time, the flush in between *)
Definition cx_calm : list (clab rfields (list assign)) :=
  [LStart (CIns (cx_k 1) (cx_row 10)); LStart (CIns (cx_k 1) (cx_row 20)); LGo 0; LGo 1; LGo 1; LStart (CUpd (cx_k 1) (cx_set 30)); LGo 2; LGo 2; LGo 2; LGo 2;
   LGo 0; LGo 2; LGo 1; LFlush; LStart (CUpd (cx_k 1) (cx_set 40)); LStart (CUpd (cx_k 1) (cx_set 50)); LGo 4; LGo 3; LGo 3; LGo 3; LEnd; LGo 3; LGo 3; LFlush; LGo 4; LGo 4; LGo 4; LGo 4; LFlush; LFlush; LEnd;
   LStart (CDel (cx_k 1)); LGo 5; LGo 5; LGo 5; LFlush; LEnd] ++ cx_ins 6 1 60 ++ [LFlush; LEnd].
Definition busyb {V F} (t : ctask V F) : bool := match ct_pc t with PNew | PDone _ _ => false | _ => true end.
Definition calmb {V F} (c : cst V F) : bool :=
  forallb (fun t => match ct_st t with CDel k => negb (busyb t) || forallb (fun u => match ct_st u with CIns j _ | CUpd j _ => negb (pkey_eqb j k && busyb u) | _ => true end) (c_tasks c) | _ => true end) (c_tasks c).
Lemma busyb_ok {V F} (t : ctask V F) : busy t -> busyb t = true.
Proof. intros [A B]. unfold busyb. destruct (ct_pc t) eqn:E; try reflexivity; [congruence|]. exfalso. eapply B. reflexivity. Qed.
Lemma calmb_ok {V F} (c : cst V F) : calmb c = true -> calm c.
Proof.
  intros H i j t u k N M SE OR BT BU. unfold calmb in H. rewrite forallb_forall in H. specialize (H t (nth_error_In _ _ N)). rewrite SE, (busyb_ok t BT) in H. cbn in H. rewrite forallb_forall in H. specialize (H u (nth_error_In _ _ M)).
  assert (KK : pkey_eqb k k = true) by (apply eqb_key; reflexivity). destruct OR as [(x & E)|(f & E)]; rewrite E, KK, (busyb_ok u BU) in H; discriminate H.
Qed.
Lemma calm_all ls : forallb (fun n => match cx_run (firstn n ls) with Some c => calmb c | None => true end) (seq 0 (S (List.length ls))) = true ->
  forall n c', moment cx_app cx_ord ls n c' -> calm c'.
Proof. intros H n c' [LE M]. rewrite forallb_forall in H. specialize (H n). assert (I : In n (seq 0 (S (List.length ls)))) by (apply in_seq; lia). specialize (H I). unfold cx_run in H. rewrite M in H. apply calmb_ok, H. Qed.
Lemma cx_set_leaves n v y : cx_app (cx_set n) v = (y, false) -> y = v.
Proof.
  unfold cx_app, srv_app, update_row, cx_set. cbn [upd_loop as_lhs as_op as_rhs].
  replace (f_get f_n (lo_fields ex_lay)) with (Some (mk_field false [qsel_tsel QU8])) by (vm_compute; reflexivity). destruct (aget bseq f_n v) as [c|]; [|cbn; intros E; congruence].
  destruct c as [| | q w | | |]; cbn; try (destruct (tclass_eqb (tsel_class (qsel_tsel q)) TcUInt); cbn); intros E; congruence.
Qed.
Example C117_restart_ex : exists c, cx_run cx_calm = Some c /\ (forall n c', moment cx_app cx_ord cx_calm n c' -> calm c') /\
  (forall k f v y, In (LStart (CUpd k f)) cx_calm -> cx_app f v = (y, false) -> y = v) /\ settled c /\
  cx_pcs (Some c) = Some [PDone CAdup 10; PDone CAok 12; PDone CAok 11; PDone CAok 22; PDone CAok 27; PDone CAok 34; PDone CAok 40] /\ mem c (cx_k 1) = Some (cx_row 60).
Proof.
  destruct (cx_run cx_calm) as [c|] eqn:R; [|exfalso; revert R; vm_compute; intros D; discriminate D]. exists c. split; [reflexivity|].
  split; [apply calm_all; vm_compute; reflexivity|]. split.
  { intros k f v y I. unfold cx_calm in I. cbn in I. repeat (destruct I as [I|I]; [try discriminate I; injection I as <- <-; apply cx_set_leaves|]). destruct I. }
  assert (P : option_map (fun c => (map ct_pc (c_tasks c), c_queue c, c_open c, mem c (cx_k 1))) (cx_run cx_calm) =
    Some ([PDone CAdup 10; PDone CAok 12; PDone CAok 11; PDone CAok 22; PDone CAok 27; PDone CAok 34; PDone CAok 40], [], [], Some (cx_row 60))) by (vm_compute; reflexivity).
  rewrite R in P. cbn [option_map] in P. injection P as P1 P2 P3 P4. split; [split; [|split; assumption]|split; [cbn; rewrite P1; reflexivity|exact P4]].
  intros i t N. apply (map_nth_error ct_pc) in N. rewrite P1 in N. repeat (destruct i as [|i]; [cbn in N; injection N as N; rewrite <- N; eauto|]). cbn in N. destruct i; discriminate N.
Qed.

(** *** overlapping DELETEs *)

(** what happened: the answers, whether all is written, the rows in memory, the rows after a start *)
Definition cx_end (ls : list (clab rfields (list assign))) (k : pkey) :=
  option_map (fun c => (map ct_pc (c_tasks c), (c_queue c, c_open c), mem c k, option_map (fun t => option_map fst (t k)) (l_start (c_file c)))) (cx_run ls).

(** an UPDATE fetched the row before the DELETE took it out and changes it afterwards; both are answered with
    success; the row is gone, and is back after the next start *)
Definition cx_back : list (clab rfields (list assign)) :=
  cx_ins 0 1 10 ++ [LStart (CUpd (cx_k 1) (cx_set 20)); LGo 1; LStart (CDel (cx_k 1)); LGo 2; LGo 2; LGo 2; LGo 1; LGo 1; LGo 1; LGo 1; LFlush; LFlush; LFlush; LEnd].
Theorem C117_deleted_row_back_refuted : exists ls, cx_end ls (cx_k 1) = Some ([PDone CAok 3; PDone CAok 13; PDone CAok 9], ([], []), None, Some (Some (cx_row 20))).
Proof. exists cx_back. vm_compute. reflexivity. Qed.

(** an INSERT takes its number, then a DELETE of the old row takes the next, removes it and is answered, then the
    INSERT succeeds; the inserted row is there, and is gone after the next start *)
Definition cx_gone : list (clab rfields (list assign)) :=
  cx_ins 0 1 10 ++ [LFlush; LEnd; LStart (CIns (cx_k 1) (cx_row 20)); LGo 1; LStart (CDel (cx_k 1)); LGo 2; LGo 2; LGo 2; LGo 1; LGo 1; LFlush; LFlush; LEnd].
Theorem C117_inserted_row_gone_refuted : exists ls, cx_end ls (cx_k 1) = Some ([PDone CAok 3; PDone CAok 13; PDone CAok 11], ([], []), Some (cx_row 20), Some None).
Proof. exists cx_gone. vm_compute. reflexivity. Qed.

(** two INSERTs of a row and a DELETE, all answered with success: the file has the changes in an order on which the
    loader's assertion fails, and the server does not start *)
Definition cx_dead : list (clab rfields (list assign)) :=
  cx_ins 0 2 1 ++ [LStart (CIns (cx_k 1) (cx_row 10)); LGo 1; LStart (CIns (cx_k 1) (cx_row 20)); LGo 2; LGo 2; LGo 2; LStart (CDel (cx_k 1)); LGo 3; LGo 3; LGo 3; LGo 1; LGo 1; LFlush; LFlush; LFlush; LFlush; LEnd].
Theorem C117_cannot_start_refuted : exists ls, cx_end ls (cx_k 1) = Some ([PDone CAok 3; PDone CAok 15; PDone CAok 9; PDone CAok 13], ([], []), Some (cx_row 10), None).
Proof. exists cx_dead. vm_compute. reflexivity. Qed.

Print Assumptions C116_one_order.
Print Assumptions C116_all_partial.
Print Assumptions C116_all_refuted.
Print Assumptions C117_restart_partial.
Print Assumptions C117_deleted_row_back_refuted.
Print Assumptions C117_inserted_row_gone_refuted.
Print Assumptions C117_cannot_start_refuted.
