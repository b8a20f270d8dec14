(** Loading an old directory and restarting from the new one. *)
From Coq Require Import Strings.String List NArith Bool Lia Permutation.
From Verif Require Import Bytes AMap DataModel CodecModel CodecProofs GnsCodecModel GnsCodecProofs GnsModel GnsProofs RowModel RowSpec RowProofs
  BatchModel BatchCodec BatchProofs BatchTable V1Model V1Spec V1LogProofs V1LogProps V1FileProofs
  UpgradeModel UpgradeSpec UpgradeProofs UpgradeNs V1FileProps.
Import ListNotations.
Local Open Scope N_scope.

(** ** The log *)
Lemma v1_upd_event utf8 e n n' d : event_wf utf8 e -> ev_code e < 8 -> apply_event n e = Some n' ->
  v1_upd utf8 (ev_payload e) (n, d) = VuOk (n', sds_event d e).
Proof.
  intros W C A. unfold v1_upd. cbn [fst snd]. rewrite (gns_upd_event utf8 e n n' W C A).
  unfold ev_payload. assert (L : List.length (u16_le (ev_code e)) = 2%nat) by apply le_enc_length.
  rewrite (take_app_k 2 _ _ L). unfold u16_le. rewrite le_dec_enc by (change (256 ^ N.of_nat 2) with 65536; lia).
  pose proof (event_roundtrip_body utf8 e [] W) as E. rewrite app_nil_r in E. rewrite E, A. reflexivity.
Qed.

Lemma v1_upd_fed utf8 es : forall n n' d, Forall (event_wf utf8) es -> Forall (fun e => ev_code e < 8) es ->
  replay n es = Some n' -> fed (v1_upd utf8) (map ev_payload es) (n, d) = Some (n', fold_left sds_event es d).
Proof.
  induction es as [|e es IH]; intros n n' d W C R; [cbn in *; congruence|]. cbn [replay] in R.
  destruct (apply_event n e) as [n1|] eqn:A; [|discriminate R]. inversion W; subst. inversion C; subst.
  cbn [map fed fold_left]. rewrite (v1_upd_event utf8 e n n1); auto.
Qed.

(** ** The content of a data file for a key *)
Definition v1_content (n : nat) (k : pkey) (bs : list (N * list bev)) : option (N * list cell) :=
  fold_left (fun v b => v1_value n k (snd b) v) bs None.

Lemma apply_all_exact n bs : forall s t, rinv s t -> n = List.length (col_names (m_lay s)) ->
  Forall (fun b => fits n (snd b)) bs ->
  match v1_apply_all s bs with
  | None => exists a b c k, bs = a ++ b :: c /\ dels_of k (snd b) <> [] /\ puts_of k (snd b) = [] /\
      fold_left (fun v b => v1_value n k (snd b) v) a (view s k) = None
  | Some s' => (exists t', rinv s' t') /\ m_lay s' = m_lay s /\ m_sd s' = m_sd s /\ m_dver s' = m_dver s /\
      m_queue s' = m_queue s /\ m_qsize s' = m_qsize s /\ m_iffy s' = m_iffy s /\
      (forall k, view s' k = fold_left (fun v b => v1_value n k (snd b) v) bs (view s k)) /\
      (forall a b c k, bs = a ++ b :: c -> dels_of k (snd b) <> [] ->
        puts_of k (snd b) <> [] \/ fold_left (fun v b => v1_value n k (snd b) v) a (view s k) <> None) /\
      (full s -> Forall (fun b => exact_fit n (snd b)) bs -> full s')
  end.
Proof.
  induction bs as [|b bs IH]; intros s t R EN F.
  - cbn [v1_apply_all fold_left]. split; [eauto|]. do 6 (split; [reflexivity|]). split; [reflexivity|]. split; [|auto].
    intros a b c k D. destruct a; discriminate D.
  - inversion F as [|? ? F1 F2]; subst. cbn [v1_apply_all].
    destruct (v1_apply_exact (fst b) (snd b) s t R F1) as [(A & s1 & E & R1 & L1 & S1 & D1 & Q1 & Z1 & I1 & V1 & U1) | (E & k & K1 & K2 & K3)]; rewrite E.
    + assert (LN : List.length (col_names (m_lay s)) = List.length (col_names (m_lay s1))) by congruence.
      specialize (IH s1 _ R1 LN F2). destruct (v1_apply_all s1 bs) as [s2|].
      * destruct IH as (T & L2 & S2 & D2 & Q2 & Z2 & I2 & V2 & A2 & U2).
        split; [exact T|]. do 6 (split; [congruence|]). split; [|split].
        -- intros k. cbn [fold_left]. rewrite V2, V1. reflexivity.
        -- intros a b0 c k E0 DN. destruct a as [|a0 a]; cbn [app] in E0; inversion E0; subst.
           ++ cbn [fold_left]. destruct (A k DN); auto.
           ++ cbn [fold_left]. rewrite <- V1. eauto.
        -- intros FU EF. inversion EF; subst. apply U2; [apply U1; assumption | assumption].
      * destruct IH as (a & b0 & c & k & -> & K1 & K2 & K3). exists (b :: a), b0, c, k. split; [reflexivity|]. split; [exact K1|]. split; [exact K2|].
        cbn [fold_left]. rewrite <- V1. exact K3.
    + exists [], b, bs, k. auto.
Qed.

(** ** Loading *)

(** models whose rows can be read: C80 is about models without removed columns *)
Definition sound_model (lay : layout) (ds : list sdelta) : Prop :=
  lay_ok lay /\ Forall is_add ds /\ forall f, In (SdAdd f) ds -> In f (col_names lay).

(** the data file of a model holds these operations *)
Definition file_holds (utf8 : bytes -> bool) (n : ns) (d : sds) (files : list (fid * bytes)) (ops : ent -> list fop) (id : ent) : Prop :=
  exists f lay, file_of n id = Some (f, lay) /\ aget fid_eqb f files = Some (closed_data (ops id)) /\
    Forall (fop_wf utf8) (ops id) /\ sound_model lay (sds_get d id) /\
    Forall (fun b => fits (List.length (col_names lay)) (snd b)) (batches (ops id)) /\
    (* no batch deletes a row that is not there *)
    forall a b c k, batches (ops id) = a ++ b :: c -> dels_of k (snd b) <> [] ->
      puts_of k (snd b) <> [] \/ v1_content (List.length (col_names lay)) k a <> None.

(** a table with the content of a file *)
Definition table_holds (n : ns) (d : sds) (ops : ent -> list fop) (id : ent) (t : mst) : Prop :=
  exists f lay, file_of n id = Some (f, lay) /\ m_lay t = lay /\ m_sd t = sds_get d id /\ m_dver t = 0 /\ (m_queue t = [] /\ m_qsize t = 0) /\
    m_iffy t = false /\ (exists b, rinv t b) /\
    (forall k, view t k = v1_content (List.length (col_names lay)) k (batches (ops id))) /\
    (Forall (fun b => exact_fit (List.length (col_names lay)) (snd b)) (batches (ops id)) -> full t).

Lemma load_tables_ok utf8 n d files ops ids : Forall (file_holds utf8 n d files ops) ids ->
  exists ts, load_tables utf8 n d files ids = VrOk ts /\ map fst ts = ids /\
    Forall (fun it => table_holds n d ops (fst it) (snd it)) ts.
Proof.
  induction 1 as [|id ids H HF IH]; [exists []; repeat split; constructor|].
  destruct IH as (ts & E & M & T). destruct H as (f & lay & E1 & E2 & W & (S1 & S2 & S3) & FT & DL).
  cbn [load_tables]. rewrite E1, E2, C80_data_file_read_exactly by exact W.
  destruct (base_rinv lay (sds_get d id) S1 S2 S3) as [BR BF].
  pose proof (apply_all_exact (List.length (col_names lay)) (batches (ops id)) _ 0 BR eq_refl FT) as AX.
  destruct (v1_apply_all (base_of lay (sds_get d id)) (batches (ops id))) as [s'|].
  - rewrite E. exists ((id, s') :: ts). cbn [map fst]. split; [reflexivity|]. split; [congruence|]. constructor; [|exact T].
    destruct AX as (T0 & L2 & SD2 & D2 & Q2 & Z2 & I2 & V2 & A2 & U2). exists f, lay. cbn [snd fst].
    split; [exact E1|]. split; [exact L2|]. split; [exact SD2|]. split; [exact D2|]. split; [split; [exact Q2 | exact Z2]|]. split; [exact I2|].
    split; [exact T0|]. split; [exact V2 | intros EF; apply U2; auto].
  - exfalso. destruct AX as (a & b & c & k & B1 & B2 & B3 & B4). destruct (DL a b c k B1 B2) as [X|X]; [contradiction|].
    apply X. exact B4.
Qed.

(** an old directory after a proper shutdown *)
Record old_dir (utf8 : bytes -> bool) (crc32 : bytes -> N) (ids : ns -> list ent) (d : udisk) (es : list gns_event)
    (us : list (bytes * bytes)) (ops : ent -> list fop) (n : ns) : Prop := {
  od_log : exists l, u_log d = Some (LgOld (closed_log crc32 l)) /\ Forall (lop_ok crc32) l /\
             N.of_nat (List.length l) + 1 < two64 /\ payloads l = map ev_payload es;
  od_wf : Forall (event_wf utf8) es;
  od_old : Forall (fun e => ev_code e < 8) es;
  od_ns : replay ns_empty es = Some n;
  od_sys : exists o1 o2 sc sv rest, u_sys d = Some (enc_dict_full (sysdb_dict o1 o2 us sc sv) ++ rest) /\
             dict_wf utf8 (sysdb_dict o1 o2 us sc sv);
  od_root : In root_account (map fst us);
  od_us : NoDup (map fst us);
  od_ids : Permutation (ids n) (akeys (n_models n));
  od_files : Forall (file_holds utf8 n (fold_left sds_event es []) (u_old d) ops) (ids n)
}.

Theorem load_old_ok utf8 crc32 cap ids d es us ops n : (0 < cap)%nat -> old_dir utf8 crc32 ids d es us ops n ->
  exists ts, load_old utf8 crc32 cap ids d = VrOk (add_users us n, ts) /\ map fst ts = ids n /\
    Forall (fun it => table_holds n (fold_left sds_event es []) ops (fst it) (snd it)) ts.
Proof.
  intros CP [(l & L1 & L2 & L3 & L4) W C R (o1 & o2 & sc & sv & rest & SY & SW) RT ND PI FH].
  destruct (load_tables_ok _ _ _ _ _ _ FH) as (ts & E & M & T). exists ts. split; [|split; assumption].
  unfold load_old. rewrite L1. rewrite (C83_log_read_exactly crc32 cap _ (v1_upd utf8) l (ns_empty, []) (n, fold_left sds_event es [])); auto.
  - rewrite E, SY, C80_accounts_read_exactly by assumption. reflexivity.
  - lia.
  - rewrite L4. apply v1_upd_fed; assumption.
Qed.

(** only models are created and altered in logs of the old format: users come from the account file *)
Lemma old_no_users es : forall n n', Forall (fun e => ev_code e < 8) es -> replay n es = Some n' -> n_users n' = n_users n.
Proof.
  induction es as [|e es IH]; intros n n' C R; [cbn in R; congruence|]. cbn [replay] in R.
  destruct (apply_event n e) as [n1|] eqn:A; [|discriminate R]. inversion C; subst. rewrite (IH n1 n') by assumption.
  assert (M : forall mid f, with_model_mut n mid f = Some n1 -> n_users n1 = n_users n).
  { intros mid f Q. unfold with_model_mut, with_space in Q. destruct (aget bseq _ (n_spaces n)) as [s|]; [|discriminate Q].
    destruct (sp_uuid s =? _); [|discriminate Q]. destruct (aget ent_eqb _ (n_models n)) as [m|]; [|discriminate Q].
    destruct (_ =? _); [|discriminate Q]. destruct (f m); [|discriminate Q]. inversion Q; subst. reflexivity. }
  destruct e; cbn [apply_event ev_code] in *; try lia.
  - destruct (aget bseq _ (n_spaces n)); inversion A; reflexivity.
  - destruct (aget bseq _ (n_spaces n)) as [s|]; [|discriminate A]. destruct (DictModel.merge_metadata _ _) as [[x|]|]; inversion A; reflexivity.
  - destruct (aget bseq _ (n_spaces n)) as [s|]; [|discriminate A]. destruct (_ =? _); inversion A; reflexivity.
  - destruct (aget bseq _ (n_spaces n)) as [s|]; [|discriminate A]. destruct (set_has _ _); [discriminate A|].
    destruct (aget ent_eqb _ (n_models n)); inversion A; reflexivity.
  - eapply M, A.
  - eapply M, A.
  - eapply M, A.
  - unfold with_space in A. destruct (aget bseq _ (n_spaces n)) as [s|]; [|discriminate A].
    destruct (_ =? _); [|discriminate A]. destruct (negb _); [discriminate A|].
    destruct (aget ent_eqb _ (n_models n)); [|discriminate A]. destruct (_ =? _); inversion A; reflexivity.
Qed.
