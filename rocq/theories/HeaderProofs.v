(** Proofs about the SDSS file header. *)
From Coq Require Import List Arith NArith Lia Bool Strings.String.
From Verif Require Import Bytes CodecProofs HeaderModel.
Import ListNotations.
Local Open Scope N_scope.

(** ranges guaranteed by the Rust types (enum discriminants, u64, u16, u128, [u8; 8]) *)
Definition build_wf (b : build) : Prop :=
  b_server b < two64 /\ b_driver b < two64 /\ b_os b <= max_os /\ b_arch b <= max_arch /\
  b_ptr b <= max_ptr /\ b_endian b <= max_endian.
Definition spec_wf (s : filespec) : Prop :=
  fs_class s <= max_class /\ fs_spec s <= max_spec /\ fs_ver s < 65536.

Lemma seg_at a n p x r : List.length p = a -> List.length x = n -> seg a n (p ++ x ++ r) = x.
Proof.
  intros Hp Hx. unfold seg. rewrite (skipn_len_app a) by auto. apply (firstn_len_app n); auto.
Qed.

Lemma n2b_small n : n < 256 -> b2n (n2b n) = n.
Proof. intros. rewrite b2n_n2b. apply N.mod_small; auto. Qed.

Lemma u16_len n : List.length (u16_le n) = 2%nat.
Proof. apply le_enc_length. Qed.
Lemma u16_dec n : n < 65536 -> le_dec (u16_le n) = n.
Proof. intros. unfold u16_le. apply le_dec_enc. exact H. Qed.

(** what the fields of an encoded header read back as *)
Lemma enc_header_segs b s epoch pad : build_wf b -> spec_wf s -> epoch < two128 -> List.length pad = 8%nat ->
  let l := enc_header b s epoch pad in
  List.length l = 64%nat /\
  le_dec (seg 0 8 l) = sdss_magic /\ le_dec (seg 8 8 l) = header_v1 /\
  le_dec (seg 16 8 l) = b_server b /\ le_dec (seg 24 8 l) = b_driver b /\
  le_dec (seg 32 1 l) = b_os b /\ le_dec (seg 33 1 l) = b_arch b /\ le_dec (seg 34 1 l) = b_ptr b /\
  le_dec (seg 35 1 l) = b_endian b /\ le_dec (seg 36 1 l) = fs_class s /\ le_dec (seg 37 1 l) = fs_spec s /\
  le_dec (seg 38 2 l) = fs_ver s /\ le_dec (seg 40 16 l) = epoch /\ seg 56 8 l = pad.
Proof.
  intros (Hs & Hd & Ho & Ha & Hp & He) (Hc & Hsp & Hv) Hep Hpad l.
  unfold max_os, max_arch, max_ptr, max_endian, max_class, max_spec in *.
  assert (HL : forall n, List.length (u64_le n) = 8%nat) by apply u64_len.
  subst l. unfold enc_header.
  set (M := u64_le sdss_magic). set (V := u64_le header_v1). set (S1 := u64_le (b_server b)).
  set (D := u64_le (b_driver b)).
  set (H6 := [n2b (b_os b); n2b (b_arch b); n2b (b_ptr b); n2b (b_endian b); n2b (fs_class s); n2b (fs_spec s)]).
  set (SV := u16_le (fs_ver s)). set (E := u128_le epoch).
  assert (LM : List.length M = 8%nat) by apply HL. assert (LV : List.length V = 8%nat) by apply HL.
  assert (LS : List.length S1 = 8%nat) by apply HL. assert (LD : List.length D = 8%nat) by apply HL.
  assert (LSV : List.length SV = 2%nat) by apply u16_len. assert (LE : List.length E = 16%nat) by apply u128_len.
  assert (L6 : List.length H6 = 6%nat) by reflexivity.
  split. { rewrite !app_length. lia. }
  split. { change (M ++ V ++ S1 ++ D ++ H6 ++ SV ++ E ++ pad) with ([] ++ M ++ V ++ S1 ++ D ++ H6 ++ SV ++ E ++ pad).
           rewrite seg_at by auto. apply u64_dec. reflexivity. }
  split. { rewrite (seg_at 8 8 M) by auto. apply u64_dec. reflexivity. }
  split. { replace (M ++ V ++ S1 ++ D ++ H6 ++ SV ++ E ++ pad) with ((M ++ V) ++ S1 ++ (D ++ H6 ++ SV ++ E ++ pad))
             by (rewrite <- !app_assoc; reflexivity).
           rewrite seg_at by (auto; rewrite app_length; lia). apply u64_dec. auto. }
  split. { replace (M ++ V ++ S1 ++ D ++ H6 ++ SV ++ E ++ pad) with ((M ++ V ++ S1) ++ D ++ (H6 ++ SV ++ E ++ pad))
             by (rewrite <- !app_assoc; reflexivity).
           rewrite seg_at by (auto; rewrite !app_length; lia). apply u64_dec. auto. }
  assert (HB : forall (k : nat) x (pre post : bytes), H6 = pre ++ [x] ++ post -> (k = 32 + List.length pre)%nat ->
            seg k 1 (M ++ V ++ S1 ++ D ++ H6 ++ SV ++ E ++ pad) = [x]).
  { intros k x pre post EH EK. rewrite EH.
    replace (M ++ V ++ S1 ++ D ++ (pre ++ [x] ++ post) ++ SV ++ E ++ pad)
      with ((M ++ V ++ S1 ++ D ++ pre) ++ [x] ++ (post ++ SV ++ E ++ pad)) by (rewrite <- !app_assoc; reflexivity).
    apply seg_at; [rewrite !app_length; lia|reflexivity]. }
  split. { rewrite (HB 32%nat (n2b (b_os b)) [] (tl H6)) by reflexivity. rewrite le_dec_1. apply n2b_small. lia. }
  split. { rewrite (HB 33%nat (n2b (b_arch b)) (firstn 1 H6) (skipn 2 H6)) by reflexivity. rewrite le_dec_1. apply n2b_small. lia. }
  split. { rewrite (HB 34%nat (n2b (b_ptr b)) (firstn 2 H6) (skipn 3 H6)) by reflexivity. rewrite le_dec_1. apply n2b_small. lia. }
  split. { rewrite (HB 35%nat (n2b (b_endian b)) (firstn 3 H6) (skipn 4 H6)) by reflexivity. rewrite le_dec_1. apply n2b_small. lia. }
  split. { rewrite (HB 36%nat (n2b (fs_class s)) (firstn 4 H6) (skipn 5 H6)) by reflexivity. rewrite le_dec_1. apply n2b_small. lia. }
  split. { rewrite (HB 37%nat (n2b (fs_spec s)) (firstn 5 H6) (skipn 6 H6)) by reflexivity. rewrite le_dec_1. apply n2b_small. lia. }
  split. { replace (M ++ V ++ S1 ++ D ++ H6 ++ SV ++ E ++ pad) with ((M ++ V ++ S1 ++ D ++ H6) ++ SV ++ (E ++ pad))
             by (rewrite <- !app_assoc; reflexivity).
           rewrite seg_at by (auto; rewrite !app_length; lia). apply u16_dec. auto. }
  split. { replace (M ++ V ++ S1 ++ D ++ H6 ++ SV ++ E ++ pad) with ((M ++ V ++ S1 ++ D ++ H6 ++ SV) ++ E ++ pad)
             by (rewrite <- !app_assoc; reflexivity).
           rewrite seg_at by (auto; rewrite !app_length; lia). apply u128_dec. auto. }
  replace (M ++ V ++ S1 ++ D ++ H6 ++ SV ++ E ++ pad) with ((M ++ V ++ S1 ++ D ++ H6 ++ SV ++ E) ++ pad ++ [])
    by (rewrite <- !app_assoc, app_nil_r; reflexivity).
  apply seg_at; [rewrite !app_length; lia|exact Hpad].
Qed.

Lemma header_roundtrip b s epoch pad : build_wf b -> spec_wf s -> epoch < two128 -> List.length pad = 8%nat ->
  dec_header b (enc_header b s epoch pad) = HOk (new_header b s epoch pad) /\
  open_header b s (enc_header b s epoch pad) = HOk (new_header b s epoch pad).
Proof.
  intros Hb Hs He Hp.
  destruct (enc_header_segs b s epoch pad Hb Hs He Hp) as
    (_ & E0 & E8 & E16 & E24 & E32 & E33 & E34 & E35 & E36 & E37 & E38 & E40 & E56).
  destruct Hb as (Hbs & Hbd & Ho & Ha & Hpt & Hen). destruct Hs as (Hc & Hsp & Hv).
  assert (D : dec_header b (enc_header b s epoch pad) = HOk (new_header b s epoch pad)).
  { unfold dec_header. rewrite E0, E8, E16, E24, E32, E33, E34, E35, E36, E37, E38, E40, E56.
    cbn [h_version h_server h_driver h_os h_arch h_ptr h_endian h_class h_spec].
    rewrite !N.eqb_refl.
    repeat match goal with |- context[?a <=? ?b] => replace (a <=? b) with true by (symmetry; apply N.leb_le; auto) end.
    reflexivity. }
  split; auto. unfold open_header. rewrite D. unfold new_header. cbn [h_specver h_class h_spec].
  rewrite !N.eqb_refl. reflexivity.
Qed.

Lemma header_wrong_spec b s s' epoch pad : build_wf b -> spec_wf s -> epoch < two128 -> List.length pad = 8%nat ->
  s <> s' -> open_header b s' (enc_header b s epoch pad) = HVersionMismatch.
Proof.
  intros Hb Hs He Hp Hne.
  destruct (header_roundtrip b s epoch pad Hb Hs He Hp) as [D _].
  unfold open_header. rewrite D. unfold new_header. cbn [h_specver h_class h_spec].
  destruct (fs_ver s =? fs_ver s') eqn:E1; cbn [negb]; auto.
  destruct (fs_class s =? fs_class s') eqn:E2; cbn [andb]; auto.
  destruct (fs_spec s =? fs_spec s') eqn:E3; auto.
  apply N.eqb_eq in E1, E2, E3. destruct s, s'; cbn in *; subst; congruence.
Qed.

(** A header accepted for a file specification has these fields, and conversely. *)
Lemma open_header_iff b s l h : open_header b s l = HOk h <->
  le_dec (seg 0 8 l) = sdss_magic /\ le_dec (seg 8 8 l) = header_v1 /\
  le_dec (seg 16 8 l) = b_server b /\ le_dec (seg 24 8 l) = b_driver b /\
  le_dec (seg 32 1 l) <= max_os /\ le_dec (seg 33 1 l) <= max_arch /\ le_dec (seg 34 1 l) <= max_ptr /\
  le_dec (seg 35 1 l) <= max_endian /\ le_dec (seg 36 1 l) <= max_class /\ le_dec (seg 37 1 l) <= max_spec /\
  le_dec (seg 36 1 l) = fs_class s /\ le_dec (seg 37 1 l) = fs_spec s /\ le_dec (seg 38 2 l) = fs_ver s /\
  h = mk_header (le_dec (seg 8 8 l)) (le_dec (seg 16 8 l)) (le_dec (seg 24 8 l))
             (le_dec (seg 32 1 l)) (le_dec (seg 33 1 l)) (le_dec (seg 34 1 l)) (le_dec (seg 35 1 l))
             (le_dec (seg 36 1 l)) (le_dec (seg 37 1 l)) (le_dec (seg 38 2 l))
             (le_dec (seg 40 16 l)) (seg 56 8 l).
Proof.
  unfold open_header, dec_header. cbn [h_version h_server h_driver h_os h_arch h_ptr h_endian h_class h_spec h_specver].
  split.
  - intros H.
    match type of H with context[if ?c then HOk (mk_header _ _ _ _ _ _ _ _ _ _ _ _) else _] => destruct c eqn:E in H end.
    2:{ match type of H with context[if ?c then HCorrupted else _] => destruct c; discriminate end. }
    cbn [h_specver h_class h_spec] in H.
    destruct (_ =? fs_ver s) eqn:E1 in H; [|discriminate]. cbn [negb] in H.
    match type of H with context[if ?c then _ else _] => destruct c eqn:E2 in H end; [|discriminate].
    injection H as <-.
    rewrite !andb_true_iff in E. rewrite !andb_true_iff in E2.
    rewrite !N.eqb_eq, !N.leb_le in E. rewrite !N.eqb_eq in E2.
    apply N.eqb_eq in E1. tauto.
  - intros (A & B & C & D & F & G & I & J & K & L & M & O & P & Q).
    subst h. rewrite A, B, C, D, P. rewrite !N.eqb_refl.
    repeat match goal with |- context[?a <=? ?b] => replace (a <=? b) with true by (symmetry; apply N.leb_le; auto) end.
    cbn [andb negb h_specver h_class h_spec]. rewrite N.eqb_refl, M, O, !N.eqb_refl. reflexivity.
Qed.

(** [fetch_id] answers 0 for every string that starts with 'v' or is not 6 bytes long *)
Lemma fetch_id_zero id : List.length id <> 6%nat \/ nth_error id 0 = Some x76 -> fetch_id id = Some 0.
Proof.
  intros H. unfold fetch_id, version_tags. cbn [map fetch_id_from].
  replace (fetch_id_eq 0 (bstr "v0.1.0") id) with (Some true); [reflexivity|].
  unfold fetch_id_eq. change (List.length (bstr "v0.1.0")) with 6%nat.
  destruct (Nat.eqb 6 (List.length id)) eqn:E; cbn [negb]; [|reflexivity].
  apply Nat.eqb_eq in E. destruct H as [H|H]; [congruence|].
  destruct id as [|c id]; [discriminate|]. cbn in H. injection H as ->. reflexivity.
Qed.
