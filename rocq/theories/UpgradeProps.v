(** C80, C81, C82: upgrading a data directory of the old storage format. *)
From Coq Require Import Strings.String List NArith Bool Lia Permutation.
From Verif Require Import Bytes AMap DataModel CodecModel CodecProofs CodecProps CrcModel GnsCodecModel GnsCodecProofs GnsCodecProps GnsModel GnsProofs
  RowModel RowSpec RowProofs RowTable RowAlter RowProps BatchModel BatchProofs BatchTable BatchProps
  V1Model V1Spec V1LogProps V1FileProofs V1FileProps UpgradeModel UpgradeSpec UpgradeProofs UpgradeNs UpgradeLoad UpgradeSteps
  UpgradeNew UpgradeLater.
Import ListNotations.
Local Open Scope N_scope.

(** * C80 *)

(** C80: the first start on an old directory brings up the spaces and models of its log, its accounts, and
    in each model the rows its data file stands for. [old_dir]: a log of any sessions and failed writes
    with the events [es]; data files of any sessions and failed writes in which no batch deletes a row that
    is not there; models whose ALTERs only added columns. *)
Theorem C80_first_start_partial : forall utf8 crc32 cap ids d es us ops n, (0 < cap)%nat ->
  old_dir utf8 crc32 ids d es us ops n ->
  exists ts, start utf8 crc32 cap ids d = StUp (add_users us n) ts /\ map fst ts = ids n /\
    Forall (fun it => table_holds n (fold_left sds_event es []) ops (fst it) (snd it)) ts.
Proof.
  intros utf8 crc32 cap ids d es us ops n C od. destruct (load_old_ok utf8 crc32 cap ids d es us ops n C od) as (ts & E & M & T).
  exists ts. unfold start. destruct (od_sys _ _ _ _ _ _ _ _ od) as (o1 & o2 & sc & sv & rest & S & _). rewrite S, E. auto.
Qed.
Print Assumptions C80_first_start_partial.

(** the accounts added are those of the account file, and the rest of the namespace is untouched *)
Theorem C80_accounts_added : forall es us n, Forall (fun e => ev_code e < 8) es -> replay ns_empty es = Some n -> NoDup (map fst us) ->
  (forall u, aget bseq u (n_users (add_users us n)) = aget bseq u us) /\
  n_spaces (add_users us n) = n_spaces n /\ n_models (add_users us n) = n_models n.
Proof.
  intros es us n C R ND. pose proof (old_no_users es ns_empty n C R) as NU.
  pose proof (replay_good _ _ _ ns_good_empty R) as G. destruct (add_users_spec us n G) as (_ & E1 & E2 & _).
  split; [|split; assumption]. clear C R E1 E2 G es. intros u. unfold add_users.
  assert (X : forall n0, (forall k, In k (map fst us) -> aget bseq k (n_users n0) = None) ->
    aget bseq u (n_users (fold_left (fun n u => match aget bseq (fst u) (n_users n) with Some _ => n | None => set_users (aput bseq (fst u) (snd u) (n_users n)) n end) us n0)) =
    match aget bseq u us with Some v => Some v | None => aget bseq u (n_users n0) end).
  { induction us as [|[a b] us IH]; intros n0 F; [reflexivity|]. cbn [map fst] in ND. inversion ND as [|? ? N1 N2]; subst.
    cbn [fold_left fst snd aget]. rewrite (F a) by (left; reflexivity). rewrite IH.
    - cbn [n_users set_users]. destruct (bseq u a) eqn:E.
      + apply bseq_eq in E. subst u. rewrite (aget_put_same _ bseq_eq).
        assert (Z : aget bseq a us = None) by (apply (aget_none _ bseq_eq); exact N1). rewrite Z. reflexivity.
      + rewrite (aget_put_other _ bseq_eq) by (intros ->; rewrite bseq_refl in E; discriminate). reflexivity.
    - exact N2.
    - intros k I. cbn [n_users set_users]. rewrite (aget_put_other _ bseq_eq); [apply F; right; exact I|]. intros ->. contradiction. }
  rewrite X.
  - rewrite NU. cbn. destruct (aget bseq u us); reflexivity.
  - intros k I. rewrite NU. reflexivity.
Qed.
Print Assumptions C80_accounts_added.

(** C80: the whole way. An old directory is loaded, everything is written in the new format, the server
    shuts down and starts again: it comes up with the same spaces, models and accounts, each model has the
    rows of its old data file, and (for rows written with all columns of the model) every SELECT by key
    answers the same as before. For every order in which spaces, models, accounts and rows are written
    ([sps], [mds], [us3], [ix]) and in which files are opened, closed and moved. *)
Theorem C80_upgrade_and_restart_partial : forall farith order utf8 crc32 cap ids d es us ops n id fs fs2 fs3 sps mds us3 bo,
  (0 < cap)%nat -> (forall m, ns_good m -> Permutation (ids m) (akeys (n_models m))) ->
  old_dir utf8 crc32 ids d es us ops n -> u_new d = [] ->
  exists ts, start utf8 crc32 cap ids d = StUp (add_users us n) ts /\ map fst ts = ids n /\
    (Permutation sps (n_spaces (add_users us n)) -> Permutation mds (n_models (add_users us n)) ->
     Permutation us3 (n_users (add_users us n)) ->
     (forall e t, In (e, t) ts -> exists ix, Permutation ix (m_idx t) /\ bo e = full_batch ix t) ->
     exists n' ts',
       start utf8 crc32 cap ids (shut (run (upgrade_steps id fs fs2 fs3 (add_users us n) sps mds us3 bo) d)) = StUp n' ts' /\
       same_ns (add_users us n) n' /\ Permutation (map fst ts') (map fst ts) /\
       forall e t t', In (e, t) ts -> In (e, t') ts' ->
         m_lay t' = m_lay t /\
         (forall k, view t k = v1_content (List.length (col_names (m_lay t))) k (batches (ops e)) /\ view t' k = view t k) /\
         (Forall (fun b => exact_fit (List.length (col_names (m_lay t))) (snd b)) (batches (ops e)) ->
          forall w cols, asked (m_lay t) w <> None ->
            snd (rstep farith order t' (RSelect w cols)) = snd (rstep farith order t (RSelect w cols)))).
Proof.
  intros farith order utf8 crc32 cap ids d es us ops n id fs fs2 fs3 sps mds us3 bo C PI od U.
  destruct (C80_first_start_partial utf8 crc32 cap ids d es us ops n C od) as (ts & E & M & T). exists ts. split; [exact E|]. split; [exact M|].
  intros P1 P2 P3 B.
  destruct (upgraded_restart utf8 crc32 cap ids d es us ops n id fs fs2 fs3 sps mds us3 ts bo PI od U M T P1 P2 P3 B)
    as (n' & ts' & E' & SN & M' & P' & T'). exists n', ts'. split; [exact E'|]. split; [exact SN|].
  assert (PP : Permutation (map fst ts') (map fst ts)).
  { rewrite M, M'. eapply Permutation_trans; [exact P'|].
    pose proof (replay_good _ _ _ ns_good_empty (od_ns _ _ _ _ _ _ _ _ od)) as G0.
    destruct (add_users_spec us n G0) as (_ & _ & EM & _).
    eapply Permutation_trans; [|apply Permutation_sym, (od_ids _ _ _ _ _ _ _ _ od)].
    apply NoDup_Permutation.
    - apply (Permutation_NoDup P'). rewrite <- M'. destruct (recreate_replayed (add_users us n) sps mds us3) as (n2 & RP & _ & G2 & _); auto.
      { destruct (add_users_spec us n G0) as (G & _). exact G. }
      rewrite M'. apply (Permutation_NoDup (Permutation_sym P')).
      assert (ND : NoDup (akeys (n_models n'))). 2: exact ND.
      destruct (run_upgraded id fs fs2 fs3 (add_users us n) sps mds us3 bo d U) as (o & RU); [| |].
      { apply Forall_forall. intros km I. destruct (add_users_spec us n G0) as (G & _).
        assert (I2 : In (fst km) (akeys (n_models (add_users us n)))) by (eapply Permutation_in; [apply Permutation_map, P2 | apply in_map, I]).
        destruct (aget ent_eqb (fst km) (n_models (add_users us n))) as [m|] eqn:EA; [|apply (aget_none _ ent_eqb_eq) in EA; contradiction].
        unfold file_of. rewrite EA. destruct (fst km) as [a b]. destruct (proj1 (ng_link _ G a b) (ex_intro _ m EA)) as (s & S & _). cbn [fst]. rewrite S. congruence. }
      { apply (Permutation_NoDup (l := akeys (n_models (add_users us n)))); [apply Permutation_map, Permutation_sym, P2|].
        destruct (add_users_spec us n G0) as (G & _). apply (ng_md _ G). }
      rewrite RU in E'. unfold shut, start in E'. cbn [u_sys u_log u_new] in E'. unfold restore_new in E'. rewrite RP in E'.
      destruct (restore_tables n2 _ _ _); try discriminate E'. cbn [as_started] in E'. injection E' as -> _. apply (ng_md _ G2).
    - rewrite <- EM. destruct (add_users_spec us n G0) as (G & _). apply (ng_md _ G).
    - intros x. destruct SN as (_ & S2 & _). specialize (S2 x). rewrite <- EM.
      destruct (aget ent_eqb x (n_models n')) as [m|] eqn:E1, (aget ent_eqb x (n_models (add_users us n))) as [m2|] eqn:E2; try discriminate S2.
      + split; intros _; [apply (aget_some_key _ ent_eqb_eq _ _ _ E2) | apply (aget_some_key _ ent_eqb_eq _ _ _ E1)].
      + apply (aget_none _ ent_eqb_eq) in E1, E2. tauto. }
  split; [exact PP|].
  intros e t t' I I'. rewrite Forall_forall in T, T'. specialize (T _ I). specialize (T' _ I'). cbn [fst snd] in T, T'.
  destruct T as (f & lay & F & L & SD & DV & Q & IF & (b & R) & V & FU).
  destruct T' as (f' & lay' & F' & L' & SD' & Q' & IF' & R' & FU' & V').
  assert (LL : lay' = lay).
  { unfold file_of in F, F'. destruct SN as (_ & S2 & _). specialize (S2 e).
    pose proof (replay_good _ _ _ ns_good_empty (od_ns _ _ _ _ _ _ _ _ od)) as G0. destruct (add_users_spec us n G0) as (_ & _ & EM & _).
    rewrite EM in S2.
    destruct (aget bseq (fst e) (n_spaces n)); [|discriminate F]. destruct (aget ent_eqb e (n_models n)) as [m1|]; [|discriminate F].
    destruct (aget bseq (fst e) (n_spaces n')); [|discriminate F']. destruct (aget ent_eqb e (n_models n')) as [m2|]; [|discriminate F'].
    injection F as _ <-. injection F' as _ <-. cbn [option_map] in S2. injection S2 as S2. symmetry. exact S2. }
  rewrite LL, <- L in L'. rewrite LL in V'. clear LL F F'. subst lay.
  split; [exact L'|]. split; [intros k; split; [apply V | rewrite V, V'; reflexivity]|].
  intros EX w cols AW. destruct (asked (m_lay t) w) as [k|] eqn:EA; [|congruence].
  apply (select_same farith order t t' w cols k b (m_dver t') R R' (FU EX) FU' L' EA). rewrite V, V'. reflexivity.
Qed.
Print Assumptions C80_upgrade_and_restart_partial.

(** ** A concrete old directory: one space, one model, a log of two sessions with a spoilt record, a data
    file of two sessions with a failed batch, two accounts. *)
Definition xu_events : list gns_event :=
  [EvCreateSpace (bstr "shop") (mk_space_layout 77 ex_dict); EvCreateModel (mk_sid 77 (bstr "shop")) (bstr "items") ex_lay].
Definition xu_log : list lop :=
  match map ev_payload xu_events with
  | [a; b] => [LEvent a; LSpoilt 5 b; LRestart; LEvent b]
  | _ => []
  end.
Definition xu_id : ent := (bstr "shop", bstr "items").
Definition xu_ns : ns := match replay ns_empty xu_events with Some n => n | None => ns_empty end.
Definition xu_fid : fid := match file_of xu_ns xu_id with Some (f, _) => f | None => (([], 0), ([], 0)) end.
Definition xu_dir : udisk :=
  mk_ud (Some (enc_dict_full (sysdb_dict false true xf_users 3 0))) (Some (LgOld (closed_log crc32i xu_log)))
    [(xu_fid, closed_data xf_ops)] [].

Lemma xu_log_ok : Forall (lop_ok crc32i) xu_log.
Proof.
  assert (B : forallb (fun o => match o with
        | LEvent p => (len p <? two64) && (crc32i p <? 2 ^ 32)
        | LSpoilt c p => (len p <? two64) && (c <? 2 ^ 32) && negb (crc32i p =? c) | LRestart => true end) xu_log = true)
      by (vm_compute; reflexivity).
  rewrite forallb_forall in B. apply Forall_forall. intros o H. specialize (B o H).
  destruct o as [p | c p |]; cbn [lop_ok]; [| |exact I].
  - apply andb_true_iff in B as [B1 B2]. apply N.ltb_lt in B1, B2. auto.
  - apply andb_true_iff in B as [B B3]. apply andb_true_iff in B as [B1 B2]. apply N.ltb_lt in B1, B2.
    apply negb_true_iff, N.eqb_neq in B3. auto.
Qed.

Lemma xu_batches : batches xf_ops = [(0, ba_evs xf_b1); (0, ba_evs xf_b2)].
Proof. vm_compute. reflexivity. Qed.

Lemma xu_old_dir : old_dir (fun _ => true) crc32i space_models xu_dir xu_events xf_users (fun _ => xf_ops) xu_ns.
Proof.
  constructor.
  - exists xu_log. split; [reflexivity|]. split; [exact xu_log_ok|]. split; [vm_compute; reflexivity | reflexivity].
  - assert (HF : layout_wf (fun _ => true) ex_lay).
    { unfold layout_wf, fieldmap_wf. cbn. do 3 (split; [reflexivity|]).
      split; [repeat (constructor || (cbn; intuition discriminate))|]. split; [reflexivity|].
      repeat (constructor; cbn; try reflexivity; try discriminate). }
    repeat (apply Forall_cons || apply Forall_nil); cbn [event_wf];
    repeat first [ exact C02_example_wf | exact HF | split ]; try reflexivity.
  - repeat constructor.
  - vm_compute. reflexivity.
  - exists false, true, 3, 0, []. split; [unfold xu_dir; rewrite app_nil_r; reflexivity | apply C80_accounts_example].
  - left. reflexivity.
  - vm_compute. repeat (constructor; [cbn; intuition discriminate|]). constructor.
  - vm_compute. repeat constructor.
  - change (space_models xu_ns) with [xu_id]. constructor; [|constructor].
    exists xu_fid, ex_lay. split; [vm_compute; reflexivity|]. split; [vm_compute; reflexivity|]. split; [apply C80_file_example|].
    split; [split; [exact ex_lay_ok | split; [vm_compute; constructor | intros f F; vm_compute in F; contradiction]]|].
    rewrite xu_batches. split; [repeat constructor; vm_compute; repeat constructor|].
    intros a b c k E D. destruct a as [|a1 [|a2 [|a3 a]]]; cbn [app] in E; try discriminate E.
    + injection E as <- _. left. cbn. intros H. apply D. reflexivity.
    + injection E as <- <- _. right. unfold dels_of in D. cbn [snd ba_evs xf_b2 filter be_kind be_key] in D.
      destruct (pkey_eqb (PkUInt 2) k) eqn:EK.
      * apply pkey_eqb_eq in EK. subst k. vm_compute. discriminate.
      * exfalso. apply D. reflexivity.
Qed.

(** what the first start brings up there *)
Definition xu_table : mst :=
  match start (fun _ => true) crc32i 50 space_models xu_dir with
  | StUp _ [(_, t)] => t
  | _ => mst_new ex_lay
  end.
Definition xu_full : ent -> batch := fun _ => full_batch (rev (m_idx xu_table)) xu_table.
Definition xu_steps : list (udisk -> udisk) :=
  upgrade_steps (N.of_nat (List.length xu_log)) [xu_fid] [xu_fid] [xu_fid] (add_users xf_users xu_ns)
    (n_spaces xu_ns) (n_models xu_ns) xf_users xu_full.
Definition up_tables (r : started) : list (ent * mst) := match r with StUp _ ts => ts | _ => [] end.
Definition up_users (r : started) : list (bytes * bytes) := match r with StUp n _ => n_users n | _ => [] end.

Example C80_example :
  old_dir (fun _ => true) crc32i space_models xu_dir xu_events xf_users (fun _ => xf_ops) xu_ns /\
  (forall m, ns_good m -> Permutation (space_models m) (akeys (n_models m))) /\ u_new xu_dir = [] /\
  Forall (fun b => exact_fit (List.length (col_names ex_lay)) (snd b)) (batches xf_ops) /\
  (let r := start (fun _ => true) crc32i 50 space_models xu_dir in
   let r' := start (fun _ => true) crc32i 50 space_models (shut (run xu_steps xu_dir)) in
   map (fun it => (fst it, map (view (snd it)) [PkUInt 1; PkUInt 2; PkUInt 3])) (up_tables r) =
     [(xu_id, [Some (1, xf_cells 11); None; Some (6, xf_cells 16)])] /\
  map (fun it => (fst it, map (view (snd it)) [PkUInt 1; PkUInt 2; PkUInt 3])) (up_tables r') =
     [(xu_id, [Some (1, xf_cells 11); None; Some (6, xf_cells 16)])] /\
  map (fun it => snd (rstep noarith idorder (snd it) (RSelect (at_key 3) None))) (up_tables r ++ up_tables r') =
     [RoRow [CQw QU64 3; CQw QU8 16; CNull; CList []]; RoRow [CQw QU64 3; CQw QU8 16; CNull; CList []]] /\
  up_users r = xf_users /\ up_users r' = xf_users).
Proof.
  split; [exact xu_old_dir|]. split; [exact space_models_perm|]. split; [reflexivity|].
  split; [rewrite xu_batches; repeat constructor; vm_compute; intros; auto; contradiction|].
  cbv zeta. do 4 (split; [vm_compute; reflexivity|]). vm_compute. reflexivity.
Qed.

(** A model from which a column was removed under the old format: the rows written before come back with
    the values in the wrong columns. The model had the columns [a] and [b]; a row with a = 1, b = 2 was
    written; ALTER MODEL removed [a]; after the upgrade the row has b = 1. *)
Definition xr_a : bytes := bstr "a".
Definition xr_b : bytes := bstr "b".
Definition xr_u8 : field := mk_field false [qsel_tsel QU8].
Definition xr_lay : layout := mk_layout 7 f_id (qsel_tsel QU64) [(f_id, mk_field false [qsel_tsel QU64]); (xr_a, xr_u8); (xr_b, xr_u8)].
Definition xr_mid : model_id := mk_mid (mk_sid 77 (bstr "shop")) (bstr "items") 0 7.
Definition xr_events : list gns_event :=
  [EvCreateSpace (bstr "shop") (mk_space_layout 77 []); EvCreateModel (mk_sid 77 (bstr "shop")) (bstr "items") xr_lay;
   EvAlterModelRemove xr_mid [xr_a]].
Definition xr_batch : batch := mk_batch 1 TuUInt 0 2 [mk_bev DkInsert 1 (PkUInt 1) [CQw QU8 1; CQw QU8 2]].
Definition xr_dir : udisk :=
  mk_ud (u_sys xu_dir) (Some (LgOld (closed_log crc32i (map LEvent (map ev_payload xr_events))))) [(xu_fid, closed_data [FBatch xr_batch])] [].
Theorem C80_removed_column_refuted : exists d n t,
  u_log d = Some (LgOld (closed_log crc32i (map LEvent (map ev_payload xr_events)))) /\
  u_old d = [(xu_fid, closed_data [FBatch xr_batch])] /\
  col_names xr_lay = [xr_a; xr_b] /\ map be_cells (ba_evs xr_batch) = [[CQw QU8 1; CQw QU8 2]] /\
  start (fun _ => true) crc32i 50 space_models d = StUp n [(xu_id, t)] /\ col_names (m_lay t) = [xr_b] /\
  snd (rstep noarith idorder t (RSelect (at_key 1) (Some [xr_b]))) = RoRow [CQw QU8 1].
Proof.
  exists xr_dir. eexists. eexists. do 4 (split; [reflexivity|]). split; [vm_compute; reflexivity|]. split; vm_compute; reflexivity.
Qed.
Print Assumptions C80_removed_column_refuted.

(** * C81 *)

(** C81: the server stops after any number [j] of the changes an upgrade makes on disk. The next start is
    refused, or comes up with everything, except at one point - the old files are moved away and the new
    log is not made yet - where it comes up as a new, empty database. It never crashes. *)
Theorem C81_interrupted_partial : forall utf8 crc32 cap ids d es us ops n l fs fs2 fs3 sps mds us3 bo j,
  (0 < cap)%nat -> old_dir utf8 crc32 ids d es us ops n -> u_log d = Some (LgOld (closed_log crc32 l)) ->
  Forall (lop_ok crc32) l -> N.of_nat (List.length l) + 1 < two64 -> payloads l = map ev_payload es ->
  Permutation fs (files_of n (ids n)) -> Permutation fs2 (files_of n (ids n)) ->
  let r := start utf8 crc32 cap ids
    (after_steps (upgrade_steps (N.of_nat (List.length l)) fs fs2 fs3 (add_users us n) sps mds us3 bo) j d) in
  (r = StNew <-> j = window fs fs2 fs3) /\
  (r <> StNew -> r = StErr \/
    exists ts, r = StUp (add_users us n) ts /\ map fst ts = ids n /\
  Forall (fun it => table_holds n (fold_left sds_event es []) ops (fst it) (snd it)) ts).
Proof.
  intros utf8 crc32 cap ids d es us ops n l fs fs2 fs3 sps mds us3 bo j C od LG LO LL LP P1 P2. cbv zeta.
  pose proof (interrupted utf8 crc32 cap ids d es us ops n l C od LG LO LL LP fs fs2 fs3 P1 P2 (add_users us n) sps mds us3 bo j) as H.
  cbv zeta in H. destruct H as [[E J] | [[E J] | [(ts & E & M & T) J]]].
  - rewrite E. split; [split; [discriminate | contradiction]|]. intros _. left. reflexivity.
  - split; [tauto|]. contradiction.
  - rewrite E. split; [split; [discriminate | contradiction]|]. intros _. right. exists ts. auto.
Qed.
Print Assumptions C81_interrupted_partial.

Example C81_example :
  old_dir (fun _ => true) crc32i space_models xu_dir xu_events xf_users (fun _ => xf_ops) xu_ns /\
  u_log xu_dir = Some (LgOld (closed_log crc32i xu_log)) /\ Forall (lop_ok crc32i) xu_log /\
  payloads xu_log = map ev_payload xu_events /\ files_of xu_ns (space_models xu_ns) = [xu_fid] /\
  List.length xu_steps = 14%nat /\ window [xu_fid] [xu_fid] [xu_fid] = 7%nat /\
  map (fun j => match start (fun _ => true) crc32i 50 space_models (after_steps xu_steps j xu_dir) with
                | StErr => 0 | StDie => 1 | StNew => 2 | StUp _ _ => 3 end) (seq 0 15) =
    [3; 0; 0; 0; 3; 0; 0; 2; 0; 0; 0; 0; 0; 0; 0].
Proof.
  split; [exact xu_old_dir|]. split; [reflexivity|]. split; [exact xu_log_ok|]. split; [reflexivity|].
  do 3 (split; [vm_compute; reflexivity|]). vm_compute. reflexivity.
Qed.

(** C81 is false as it stands: a directory with two rows and two accounts, stopped between moving the old
    files away and making the new log, comes up as an empty database. *)
Theorem C81_comes_up_empty_refuted : exists d steps j n t,
  start (fun _ => true) crc32i 50 space_models d = StUp n [(xu_id, t)] /\
  n_users n = xf_users /\ map (view t) [PkUInt 1; PkUInt 3] = [Some (1, xf_cells 11); Some (6, xf_cells 16)] /\
  start (fun _ => true) crc32i 50 space_models (after_steps steps j d) = StNew /\
  exists bo, steps = upgrade_steps 4 [xu_fid] [xu_fid] [xu_fid] n (n_spaces n) (n_models n) (n_users n) bo.
Proof.
  exists xu_dir, (upgrade_steps 4 [xu_fid] [xu_fid] [xu_fid] (add_users xf_users xu_ns) (n_spaces (add_users xf_users xu_ns))
     (n_models (add_users xf_users xu_ns)) (n_users (add_users xf_users xu_ns)) xu_full), 7%nat. eexists. eexists.
  split; [vm_compute; reflexivity|]. split; [vm_compute; reflexivity|]. split; [vm_compute; reflexivity|].
  split; [vm_compute; reflexivity|]. exists xu_full. unfold add_users. vm_compute. reflexivity.
Qed.
Print Assumptions C81_comes_up_empty_refuted.

(** * C82 *)

(** what a restart right after the upgrade would read *)
Lemma upgraded_reads t b ix : rinv t b -> Permutation ix (m_idx t) ->
  exists m0, reads_as (fst (up_model t ix)) (snd (up_model t ix)) m0 /\ rinv m0 (m_dver m0) /\ forall k, view m0 k = view t k.
Proof.
  intros R P. destruct (full_restart t b ix [] R P (Forall_nil _)) as (s2 & E & R2 & L & SD & DV & Q & QS & IF & FU & V); [intros f []|].
  exists s2. unfold reads_as, up_model. cbn [fst snd b_m b_file]. unfold sver. rewrite skipn_len. split; [exact E|].
  rewrite DV. split; [exact R2 | exact V].
Qed.
Lemma upgraded_idle n dl ops e t ix : table_holds n dl ops e t -> idle (snd (up_model t ix)).
Proof. intros (f & lay & _ & _ & _ & _ & (Q & Z) & IF & _). constructor; cbn [snd up_model b_fl b_tasks b_bad b_m]; auto. Qed.

(** C82 is false as it stands. Every row with a number other than 0: an accepted UPDATE before the first
    restart is written without complaint, and then the server cannot start any more. *)
Theorem C82_update_kills : forall farith order n dl ops e t ix w asg key r cs s1,
  table_holds n dl ops e t -> Permutation ix (m_idx t) -> asked (m_lay t) w = Some key -> view t key = Some (r, cs) -> 0 < r ->
  bstep farith order (snd (up_model t ix)) (BStmt (RUpdate w asg)) = (s1, BoStmt RoOk) ->
  exists s2, up_run farith order (fst (up_model t ix), s1) flush_one_ops = ((fst (up_model t ix), s2), [BoDone; BoDone; BoDone; BoDone]) /\
    up_step farith order (fst (up_model t ix), s2) BRestart = ((fst (up_model t ix), s2), BoPanic).
Proof.
  intros farith order n dl ops e t ix w asg key r cs s1 T P A V R0 H. pose proof T as (f & lay & _ & _ & _ & DV & _ & _ & (b & R) & _).
  destruct (upgraded_reads t b ix R P) as (m0 & RA & RR & VV).
  eapply (update_is_lethal farith order _ _ m0 _ w asg r key cs s1); eauto.
  - exact (upgraded_idle _ _ _ _ _ ix T).
  - apply (rinv_ginv _ _ R).
  - rewrite VV. exact V.
  - change (m_dver t <= r). lia.
Qed.
Print Assumptions C82_update_kills.

(** Likewise an accepted DELETE: the row is gone, the change is written, and a restart brings it back. *)
Theorem C82_delete_undone : forall farith order n dl ops e t ix w key r cs s1,
  table_holds n dl ops e t -> Permutation ix (m_idx t) -> asked (m_lay t) w = Some key -> view t key = Some (r, cs) -> 0 < r ->
  bstep farith order (snd (up_model t ix)) (BStmt (RDelete w)) = (s1, BoStmt RoOk) ->
  view (b_m s1) key = None /\
  exists s2 s3, up_run farith order (fst (up_model t ix), s1) flush_one_ops = ((fst (up_model t ix), s2), [BoDone; BoDone; BoDone; BoDone]) /\
    up_step farith order (fst (up_model t ix), s2) BRestart = ((0%nat, s3), BoDone) /\
    forall k, view (b_m s3) k = view t k.
Proof.
  intros farith order n dl ops e t ix w key r cs s1 T P A V R0 H. pose proof T as (f & lay & _ & _ & _ & DV & _ & _ & (b & R) & _).
  destruct (upgraded_reads t b ix R P) as (m0 & RA & RR & VV).
  destruct (delete_is_undone farith order (fst (up_model t ix)) (snd (up_model t ix)) m0 (m_dver m0) w r key cs s1) as (V1 & s2 & s3 & E1 & E2 & E3); auto.
  - exact (upgraded_idle _ _ _ _ _ ix T).
  - apply (rinv_ginv _ _ R).
  - rewrite VV. exact V.
  - change (m_dver t < r). lia.
  - split; [exact V1|]. exists s2, s3. split; [exact E1|]. split; [exact E2|]. intros k. rewrite E3. apply VV.
Qed.
Print Assumptions C82_delete_undone.

(** on the directory above: rows 1 (number 1) and 3 (number 6) *)
Lemma xu_holds : table_holds xu_ns (fold_left sds_event xu_events []) (fun _ => xf_ops) xu_id xu_table.
Proof.
  destruct (C80_first_start_partial (fun _ => true) crc32i 50 space_models xu_dir xu_events xf_users (fun _ => xf_ops) xu_ns) as (ts & E & M & T).
  - lia.
  - exact xu_old_dir.
  - unfold xu_table. rewrite E. change (space_models xu_ns) with [xu_id] in M. destruct ts as [|[i t] [|x ts]]; try discriminate M.
    cbn [map fst] in M. injection M as ->. inversion T as [|? ? T1 _]; subst. exact T1.
Qed.
Example C82_example :
  table_holds xu_ns (fold_left sds_event xu_events []) (fun _ => xf_ops) xu_id xu_table /\
  asked (m_lay xu_table) (at_key 3) = Some (PkUInt 3) /\ view xu_table (PkUInt 3) = Some (6, xf_cells 16) /\
  snd (bstep noarith idorder (snd (up_model xu_table (m_idx xu_table))) (w_upd 3 40)) = BoStmt RoOk /\
  snd (bstep noarith idorder (snd (up_model xu_table (m_idx xu_table))) (w_del 3)) = BoStmt RoOk.
Proof. split; [exact xu_holds|]. do 3 (split; [vm_compute; reflexivity|]). vm_compute. reflexivity. Qed.

Theorem C82_update_refuted : exists t ix ks,
  start (fun _ => true) crc32i 50 space_models xu_dir = StUp (add_users xf_users xu_ns) [(xu_id, t)] /\ Permutation ix (m_idx t) /\
  up_run noarith idorder (up_model t ix) (w_upd 3 40 :: flush_one_ops ++ [BRestart]) =
    (ks, [BoStmt RoOk; BoDone; BoDone; BoDone; BoDone; BoPanic]).
Proof.
  exists xu_table, (m_idx xu_table). eexists. split; [vm_compute; reflexivity|]. split; [apply Permutation_refl|]. vm_compute. reflexivity.
Qed.
Print Assumptions C82_update_refuted.
Theorem C82_delete_refuted : exists t ix ks,
  start (fun _ => true) crc32i 50 space_models xu_dir = StUp (add_users xf_users xu_ns) [(xu_id, t)] /\ Permutation ix (m_idx t) /\
  up_run noarith idorder (up_model t ix)
    (BStmt (RSelect (at_key 3) (Some [f_n])) :: w_del 3 :: BStmt (RSelect (at_key 3) (Some [f_n])) :: flush_one_ops ++ [BRestart; BStmt (RSelect (at_key 3) (Some [f_n]))]) =
    (ks, [BoStmt (RoRow [CQw QU8 16]); BoStmt RoOk; BoStmt (RoErr ENoRow); BoDone; BoDone; BoDone; BoDone; BoDone; BoStmt (RoRow [CQw QU8 16])]).
Proof.
  exists xu_table, (m_idx xu_table). eexists. split; [vm_compute; reflexivity|]. split; [apply Permutation_refl|]. vm_compute. reflexivity.
Qed.
Print Assumptions C82_delete_refuted.

(** What does hold: if the server is restarted once after the upgrade before anything is written, everything
    is as in C24. The restart keeps every row; after any later history without ALTER MODEL, whose restarts
    happen with all changes flushed, the rows are those the acknowledged statements make of the upgraded
    ones; and a clean shutdown followed by a restart keeps every answer. *)
Theorem C82_restart_first_partial : forall farith order, (forall l, Permutation (order l) l) ->
  forall n dl ops e t ix, table_holds n dl ops e t -> Permutation ix (m_idx t) ->
  exists s0, up_step farith order (up_model t ix) BRestart = ((0%nat, s0), BoDone) /\
    (forall k, view (b_m s0) k = view t k) /\
    (forall s o, up_step farith order (0%nat, s) o = ((0%nat, fst (bstep farith order s o)), snd (bstep farith order s o))) /\
    forall h s, plain_from farith order s0 h s ->
      let T := fold_left (tlog (fun m asg => fst (update_row farith (lo_fields (m_lay t)) m asg)) (m_lay t)) (stmts h) (rows_of (b_m s0)) in
      (forall k, orow_eq (rows_of (b_m s) k) (T k)) /\
      (b_fl s = None ->
       (forall d o, In d (m_queue (b_m s)) -> nth_error (m_objs (b_m s)) (dd_row d) = Some o -> ro_key o <> PkNull) ->
       Forall (fun r => r <> BoUb /\ r <> BoPanic /\ r <> BoFail) (snd (brun farith order s (shutdown_ops s))) /\
       exists s', bstep farith order (fst (brun farith order s (shutdown_ops s))) BRestart = (s', BoDone) /\
         forall w cols, asked (m_lay t) w <> None ->
           snd (rstep farith order (b_m s') (RSelect w cols)) = snd (rstep farith order (b_m s) (RSelect w cols))).
Proof.
  intros farith order OP n dl ops e t ix T P. pose proof T as (f & lay & _ & _ & _ & _ & _ & _ & (b & R) & _).
  destruct (first_restart farith order t b ix R P) as (s0 & E & FI & FL & TS & L & SD & Q & DV & IF & FU & V & B & LK).
  exists s0. split; [exact E|]. split; [exact V|].
  split. { intros s o. rewrite up_step_zero. destruct (bstep farith order s o). reflexivity. }
  intros h s H T0. pose proof (gi_lay _ (ri_g _ _ R)) as LO.
  destruct (@plain_from_table (the_past t b ix R P) farith order OP (m_lay t) s0 h s LO B LK L SD H) as (B1 & L1 & SD1 & TE).
  split; [exact TE|]. intros NF NN.
  destruct (@shutdown_ok (the_past t b ix R P) farith order s B1 NF) as (s1 & E1 & R1 & B2 & (L2 & SD2 & V1) & F1 & T1 & Q1 & _).
  { apply Forall_forall. intros d Hd o EO. eapply NN; eauto. }
  split; [exact R1|]. rewrite E1.
  destruct (@restart_view (the_past t b ix R P) farith order s1 B2 F1) as (s' & E' & L' & SD' & Q' & (t' & R') & IF' & F' & FI' & FU' & V').
  exists s'. split; [exact E'|]. intros w cols HW. destruct (asked (m_lay t) w) as [k|] eqn:EW; [|congruence].
  apply (select_ext farith order _ _ w cols k); try congruence.
  - apply (ri_g _ _ (bi_r _ B1)).
  - apply (ri_g _ _ R').
  - apply (view_rows _ _ _ _ k (bi_r _ B1) R'); auto; [apply (bi_full _ B1 SD1)|apply FU'; congruence|congruence|].
    rewrite V', V1; [reflexivity|]. intros (d & o & D & _). rewrite Q1 in D. destruct D.
Qed.
Print Assumptions C82_restart_first_partial.

(** restart, then a write, a delete and an insert, flushed, restarted *)
Example C82_restart_example : exists ks,
  up_run noarith idorder (up_model xu_table (m_idx xu_table))
    (BRestart :: [w_upd 3 40; w_del 1; w_ins 9 90] ++ flush_all 3 ++ [BRestart; BStmt (RSelect (at_key 3) (Some [f_n])); BStmt (RSelect (at_key 1) (Some [f_n])); BStmt (RSelect (at_key 9) (Some [f_n]))]) =
    (ks, [BoDone; BoStmt RoOk; BoStmt RoOk; BoStmt RoOk; BoDone; BoDone; BoDone; BoDone; BoDone; BoDone; BoDone;
          BoStmt (RoRow [CQw QU8 40]); BoStmt (RoErr ENoRow); BoStmt (RoRow [CQw QU8 90])]).
Proof. eexists. vm_compute. reflexivity. Qed.
