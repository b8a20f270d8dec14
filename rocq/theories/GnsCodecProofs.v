(** Proofs about the payload codec of the system log. *)
From Coq Require Import List Arith NArith Lia Bool.
From Verif Require Import Bytes DataModel CodecModel CodecProofs GnsCodecModel.
Import ListNotations.
Local Open Scope N_scope.

Section P.
Variable utf8 : bytes -> bool.

(** Names are [str]s: valid UTF-8 with a [usize] length. *)
Definition name_wf (n : bytes) : Prop := len n < two64 /\ utf8 n = true.
Definition sid_wf (s : space_id) : Prop := sid_uuid s < two128 /\ name_wf (sid_name s).
Definition mid_wf (m : model_id) : Prop :=
  sid_wf (mid_space m) /\ name_wf (mid_name m) /\ mid_version m < two64 /\ mid_uuid m < two128.

Definition event_wf (e : gns_event) : Prop :=
  match e with
  | EvCreateSpace name sp => name_wf name /\ space_wf utf8 sp
  | EvAlterSpace sid props => sid_wf sid /\ dict_wf utf8 props
  | EvDropSpace sid => sid_wf sid
  | EvCreateModel sid name m => sid_wf sid /\ name_wf name /\ layout_wf utf8 m
  | EvAlterModelAdd mid fs | EvAlterModelUpdate mid fs => mid_wf mid /\ fieldmap_wf utf8 fs
  | EvAlterModelRemove mid fs => mid_wf mid /\ N.of_nat (length fs) < two64 /\ Forall name_wf fs
  | EvDropModel mid => mid_wf mid
  | EvCreateUser name hash | EvAlterUser name hash => name_wf name /\ len hash < two64
  | EvDropUser name => name_wf name
  end.

Lemma rd_u128_app n r : n < two128 -> rd_u128 (u128_le n ++ r) = ROk (n, r).
Proof. intros. unfold rd_u128. rewrite take_app_k by apply u128_len. rewrite u128_dec; auto. Qed.

Lemma rd_string_app n r : utf8 n = true -> rd_string utf8 (len n) (n ++ r) = ROk (n, r).
Proof. intros H. unfold rd_string. rewrite rd_block_app. cbn [rbind]. rewrite H. reflexivity. Qed.

Lemma wadd_le a b : wadd a b <= a + b.
Proof. unfold wadd. apply N.mod_le. discriminate. Qed.

Lemma dec_sid_meta_app s r : sid_wf s ->
  dec_sid_meta (enc_sid_meta s ++ r) = ROk (mk_sid_md (sid_uuid s) (len (sid_name s)), r).
Proof.
  intros (HU & HL & _). unfold dec_sid_meta, enc_sid_meta. rewrite <- app_assoc.
  rewrite rd_u128_app by auto. cbn [rbind]. rewrite rd_u64_app by auto. reflexivity.
Qed.

Lemma dec_sid_obj_app s r : sid_wf s ->
  dec_sid_obj utf8 (mk_sid_md (sid_uuid s) (len (sid_name s))) (enc_sid_obj s ++ r) = ROk (s, r).
Proof.
  intros (HU & HL & H8). unfold dec_sid_obj, enc_sid_obj. cbn [sm_len sm_uuid].
  rewrite rd_string_app by auto. cbn [rbind]. destruct s; reflexivity.
Qed.

Definition mid_md_of (m : model_id) : mid_md :=
  mk_mid_md (mk_sid_md (sid_uuid (mid_space m)) (len (sid_name (mid_space m))))
    (len (mid_name m)) (mid_version m) (mid_uuid m).

Lemma dec_mid_meta_app m r : mid_wf m ->
  dec_mid_meta (enc_mid_meta m ++ r) = ROk (mid_md_of m, r).
Proof.
  intros (HS & [HN _] & HV & HU). unfold dec_mid_meta, enc_mid_meta. rewrite <- !app_assoc.
  rewrite dec_sid_meta_app by auto. cbn [rbind].
  rewrite rd_u64_app by auto. cbn [rbind]. rewrite rd_u64_app by auto. cbn [rbind].
  rewrite rd_u128_app by auto. reflexivity.
Qed.

Lemma dec_mid_obj_app m r : mid_wf m ->
  dec_mid_obj utf8 (mid_md_of m) (enc_mid_obj m ++ r) = ROk (m, r).
Proof.
  intros (HS & [HN H8] & HV & HU). unfold dec_mid_obj, enc_mid_obj, mid_md_of.
  cbn [mm_space mm_len mm_version mm_uuid]. rewrite <- app_assoc.
  rewrite dec_sid_obj_app by auto. cbn [rbind]. rewrite rd_string_app by auto. cbn [rbind].
  destruct m; reflexivity.
Qed.

Lemma dec_names_app l : Forall name_wf l -> forall f r, (length (enc_names l) < f)%nat ->
  dec_names utf8 f (N.of_nat (length l)) (enc_names l ++ r) = ROk (l, r).
Proof.
  induction 1 as [|n l [HN H8] Hl IH]; intros f r HF; destruct f as [|f]; try lia.
  - reflexivity.
  - unfold enc_names in *. cbn [map concat] in *. rewrite !app_length, u64_len in HF.
    cbn [dec_names].
    destruct (N.of_nat (length (n :: l)) =? 0) eqn:E; [apply N.eqb_eq in E; cbn [length] in E; lia|].
    rewrite <- !app_assoc.
    rewrite has_left_le by (rewrite len_app, len_u64; lia). cbn [negb].
    rewrite rd_u64_app by auto. cbn [rbind].
    rewrite has_left_le by (rewrite len_app; lia). cbn [negb].
    rewrite rd_string_app by auto. cbn [rbind].
    replace (N.of_nat (length (n :: l)) - 1) with (N.of_nat (length l)) by (cbn [length]; lia).
    rewrite IH by lia. reflexivity.
Qed.

Lemma dec_user_app u p r : name_wf u -> len p < two64 ->
  dec_user utf8 (((u64_le (len u) ++ u64_le (len p) ++ u64_le 0) ++ u ++ p) ++ r) = ROk (u, p, r).
Proof.
  intros [HU H8] HP. unfold dec_user. rewrite <- !app_assoc.
  rewrite has_left_le by (rewrite !len_app, !len_u64; lia). cbn [negb].
  rewrite rd_u64_app by auto. cbn [rbind]. rewrite rd_u64_app by auto. cbn [rbind].
  rewrite rd_u64_app by reflexivity. cbn [rbind].
  rewrite has_left_le by (rewrite !len_app; pose proof (wadd_le (len u) (len p)); lia). cbn [negb].
  rewrite rd_string_app by auto. cbn [rbind]. rewrite rd_block_app. reflexivity.
Qed.

Lemma len_sid_meta s : len (enc_sid_meta s) = 24.
Proof. unfold enc_sid_meta. rewrite len_app, len_u128, len_u64. reflexivity. Qed.
Lemma len_mid_meta m : len (enc_mid_meta m) = 56.
Proof. unfold enc_mid_meta. rewrite !len_app, len_sid_meta, len_u128, !len_u64. reflexivity. Qed.
Lemma len_layout_meta m : len (enc_layout_meta m) = 40.
Proof. unfold enc_layout_meta. rewrite !len_app, len_u128, !len_u64. reflexivity. Qed.

Lemma dec_layout_meta_app m r : layout_wf utf8 m ->
  dec_layout_meta (enc_layout_meta m ++ r) =
  ROk (mk_layout_md (lo_uuid m) (len (lo_pk m)) (tsel_code (lo_ptag m)) (N.of_nat (length (lo_fields m))), r).
Proof.
  intros (HU & HP & HP8 & ND & HB & HF). unfold dec_layout_meta, enc_layout_meta.
  rewrite <- !app_assoc. rewrite take_app_k by apply u128_len.
  rewrite !rd_u64_app by (try apply u64_ok_code; auto). cbn [rbind].
  rewrite rd_u64_app by (try apply u64_ok_code; auto). cbn [rbind].
  rewrite rd_u64_app by (try apply u64_ok_code; auto). cbn [rbind].
  rewrite u128_dec by auto. reflexivity.
Qed.

Lemma dec_layout_obj_app m r : layout_wf utf8 m ->
  dec_layout_obj utf8 (mk_layout_md (lo_uuid m) (len (lo_pk m)) (tsel_code (lo_ptag m)) (N.of_nat (length (lo_fields m))))
    (enc_layout_obj m ++ r) = ROk (m, r).
Proof.
  intros (HU & HP & HP8 & HF). unfold dec_layout_obj, enc_layout_obj.
  cbn [lm_uuid lm_pklen lm_ptag lm_fieldc]. rewrite <- app_assoc.
  rewrite rd_block_app. cbn [rbind]. rewrite HP8. cbn [negb].
  rewrite fields_roundtrip by auto. cbn [rbind].
  rewrite tsel_of_code_code. destruct m; reflexivity.
Qed.

Ltac left_ok := rewrite has_left_le by
  (repeat rewrite len_app; rewrite ?len_mid_meta, ?len_sid_meta, ?len_layout_meta, ?len_u64, ?len_u128; lia);
  cbn [negb].

Lemma event_roundtrip_body e r : event_wf e ->
  dec_event_body utf8 (ev_code e) (enc_event e ++ r) = ROk (e, r).
Proof.
  destruct e; cbn [event_wf ev_code enc_event dec_event_body].
  - intros [[HN H8] [HU HD]]. rewrite <- !app_assoc. left_ok.
    rewrite rd_u64_app by auto. cbn [rbind]. rewrite rd_u128_app by auto. cbn [rbind].
    rewrite rd_u64_app by (inversion HD; auto). cbn [rbind]. left_ok.
    rewrite rd_string_app by auto. cbn [rbind]. rewrite dict_obj_roundtrip by auto.
    destruct sp; reflexivity.
  - intros [HS HD]. rewrite <- !app_assoc. left_ok.
    rewrite dec_sid_meta_app by auto. cbn [rbind].
    rewrite rd_u64_app by (inversion HD; auto). cbn [rbind sm_len].
    unfold enc_sid_obj at 1. left_ok.
    rewrite dec_sid_obj_app by auto. cbn [rbind]. rewrite dict_obj_roundtrip by auto. reflexivity.
  - intros HS. rewrite <- app_assoc. left_ok. rewrite dec_sid_meta_app by auto. cbn [rbind sm_len].
    unfold enc_sid_obj at 1. left_ok. rewrite dec_sid_obj_app by auto. reflexivity.
  - intros (HS & [HN H8] & HM). rewrite <- !app_assoc. left_ok.
    rewrite dec_sid_meta_app by auto. cbn [rbind]. rewrite rd_u64_app by auto. cbn [rbind].
    rewrite dec_layout_meta_app by auto. cbn [rbind lm_pklen].
    rewrite has_left_le.
    2:{ pose proof (wadd_le (len (lo_pk m)) (len name)). unfold enc_layout_obj.
        rewrite !len_app. lia. }
    cbn [negb]. rewrite dec_sid_obj_app by auto. cbn [rbind]. rewrite rd_string_app by auto. cbn [rbind].
    rewrite dec_layout_obj_app by auto. reflexivity.
  - intros [HM HF]. rewrite <- !app_assoc. left_ok. rewrite dec_mid_meta_app by auto. cbn [rbind].
    rewrite rd_u64_app by apply HF. cbn [rbind].
    rewrite has_left_le.
    2:{ unfold mid_md_of. cbn. pose proof (wadd_le (len (sid_name (mid_space mid))) (len (mid_name mid))).
        unfold enc_mid_obj, enc_sid_obj. rewrite !len_app. lia. }
    cbn [negb]. rewrite dec_mid_obj_app by auto. cbn [rbind]. rewrite fields_roundtrip by auto. reflexivity.
  - intros (HM & HL & HF). rewrite <- !app_assoc. left_ok. rewrite dec_mid_meta_app by auto. cbn [rbind].
    rewrite rd_u64_app by auto. cbn [rbind].
    rewrite has_left_le.
    2:{ unfold mid_md_of. cbn. pose proof (wadd_le (len (sid_name (mid_space mid))) (len (mid_name mid))).
        unfold enc_mid_obj, enc_sid_obj. rewrite !len_app. lia. }
    cbn [negb]. rewrite dec_mid_obj_app by auto. cbn [rbind].
    rewrite dec_names_app; auto. rewrite app_length. lia.
  - intros [HM HF]. rewrite <- !app_assoc. left_ok. rewrite dec_mid_meta_app by auto. cbn [rbind].
    rewrite rd_u64_app by apply HF. cbn [rbind].
    rewrite has_left_le.
    2:{ unfold mid_md_of. cbn. pose proof (wadd_le (len (sid_name (mid_space mid))) (len (mid_name mid))).
        unfold enc_mid_obj, enc_sid_obj. rewrite !len_app. lia. }
    cbn [negb]. rewrite dec_mid_obj_app by auto. cbn [rbind]. rewrite fields_roundtrip by auto. reflexivity.
  - intros HM. rewrite <- !app_assoc. left_ok. rewrite dec_mid_meta_app by auto. cbn [rbind].
    rewrite has_left_le.
    2:{ unfold mid_md_of. cbn. pose proof (wadd_le (len (sid_name (mid_space mid))) (len (mid_name mid))).
        unfold enc_mid_obj, enc_sid_obj. rewrite !len_app. lia. }
    cbn [negb]. rewrite dec_mid_obj_app by auto. reflexivity.
  - intros [HN HH]. rewrite dec_user_app by auto. reflexivity.
  - intros [HN HH]. rewrite dec_user_app by auto. reflexivity.
  - intros [HN H8]. rewrite <- !app_assoc. left_ok. rewrite rd_u64_app by auto. cbn [rbind].
    left_ok. rewrite rd_string_app by auto. reflexivity.
Qed.

Lemma event_roundtrip e : event_wf e -> dec_event utf8 (ev_code e) (enc_event e) = ROk e.
Proof.
  intros H. unfold dec_event. pose proof (event_roundtrip_body e [] H) as E.
  rewrite app_nil_r in E. rewrite E. reflexivity.
Qed.

Lemma rbind_ok {A B} (r : res A) (f : A -> res B) b : rbind r f = ROk b ->
  exists a, r = ROk a /\ f a = ROk b.
Proof. destruct r; cbn; try discriminate. eauto. Qed.

Lemma event_kind code l e : dec_event utf8 code l = ROk e -> ev_code e = code.
Proof.
  unfold dec_event. intros H. apply rbind_ok in H as ([e' l1] & H & H1).
  destruct l1; [|discriminate]. injection H1 as ->. revert H.
  unfold dec_event_body.
  destruct code as [|p]; [|destruct p as [[[[?|?|]|[?|?|]|]|[[?|?|]|[?|?|]|]|]|[[[?|?|]|[?|?|]|]|[[?|?|]|[?|?|]|]|]|]; try discriminate];
  intros H;
  repeat match type of H with
  | (if ?c then RErr else _) = _ => destruct c; [discriminate|]
  | (let* x := _ in _) = _ => apply rbind_ok in H as ([? ?] & _ & H); cbv beta iota in H
  | (let '(_, _) := ?p in _) = _ => destruct p
  end; injection H as <- _; reflexivity.
Qed.

End P.
