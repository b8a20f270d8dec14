From Coq Require Import Strings.String List NArith Lia Bool.
From Verif Require Import Bytes CrcModel.
Import ListNotations.
Local Open Scope N_scope.

Lemma crc_update_app s a b : crc_update s (a ++ b) = crc_update (crc_update s a) b.
Proof. apply fold_left_app. Qed.

Lemma crc_update_nil s : crc_update s [] = s.
Proof. reflexivity. Qed.

(** the register stays below 2^64 *)
Lemma lt_two64_bits a : a < two64 <-> (forall i, 64 <= i -> N.testbit a i = false).
Proof.
  split.
  - intros H i Hi. destruct (N.eq_0_gt_0_cases a) as [->|Hp]; [apply N.bits_0|].
    apply N.bits_above_log2.
    assert (N.log2 a < 64); [|lia].
    apply N.log2_lt_pow2; [lia|]. exact H.
  - intros H. destruct (N.eq_0_gt_0_cases a) as [->|Hp]; [reflexivity|].
    change two64 with (2^64). apply N.log2_lt_pow2; [lia|].
    destruct (N.lt_ge_cases (N.log2 a) 64) as [|C]; auto.
    exfalso.
    pose proof (N.bit_log2 a ltac:(lia)) as B. rewrite (H _ C) in B. discriminate.
Qed.

Lemma lxor_lt a b : a < two64 -> b < two64 -> N.lxor a b < two64.
Proof.
  rewrite !lt_two64_bits. intros Ha Hb i Hi. rewrite N.lxor_spec, Ha, Hb by auto. reflexivity.
Qed.

Lemma div2_lt a : a < two64 -> N.div2 a < 2^63.
Proof.
  intros H. rewrite N.div2_div. apply N.div_lt_upper_bound; [lia|].
  change (2 * 2^63) with two64. exact H.
Qed.

Lemma div2_lt' a : a < two64 -> N.div2 a < two64.
Proof. intros H. apply div2_lt in H. change two64 with (2 * 2^63). lia. Qed.

Lemma crc_bit_lt s : s < two64 -> crc_bit s < two64.
Proof.
  intros H. unfold crc_bit. destruct (N.odd s).
  - apply lxor_lt; [apply div2_lt'; auto|reflexivity].
  - apply div2_lt'; auto.
Qed.

Lemma crc_bit8_lt s : s < two64 -> crc_bit8 s < two64.
Proof. intros. unfold crc_bit8. do 8 apply crc_bit_lt. auto. Qed.

Lemma b2n_lt64 b : b2n b < two64.
Proof. pose proof (b2n_lt b). unfold two64. lia. Qed.

Lemma crc_byte_lt s b : s < two64 -> crc_byte s b < two64.
Proof. intros. apply crc_bit8_lt, lxor_lt; auto. apply b2n_lt64. Qed.

Lemma crc_update_lt l : forall s, s < two64 -> crc_update s l < two64.
Proof.
  induction l as [|b l IH]; intros s H; simpl; auto. apply IH, crc_byte_lt, H.
Qed.

Lemma crc_new_lt : crc_new < two64.
Proof. reflexivity. Qed.

Lemma crc_finish_lt s : s < two64 -> crc_finish s < two64.
Proof. intros. apply lxor_lt; auto. reflexivity. Qed.

Lemma crc64_lt l : crc64 l < two64.
Proof. apply crc_finish_lt, crc_update_lt, crc_new_lt. Qed.

Lemma crc64_nil : crc64 [] = 0.
Proof. reflexivity. Qed.

(** injectivity of the register step *)
Lemma crc_bit_inj a b : a < two64 -> b < two64 -> crc_bit a = crc_bit b -> a = b.
Proof.
  intros Ha Hb H.
  assert (T : forall s, s < two64 -> N.testbit (crc_bit s) 63 = N.odd s).
  { intros s Hs. unfold crc_bit.
    assert (Z : N.testbit (N.div2 s) 63 = false).
    { rewrite N.div2_spec, N.shiftr_spec by lia. apply lt_two64_bits with (i := 63 + 1); auto. lia. }
    destruct (N.odd s); [rewrite N.lxor_spec|]; rewrite Z; reflexivity. }
  assert (O : N.odd a = N.odd b) by (rewrite <- !T by auto; congruence).
  assert (D : N.div2 a = N.div2 b).
  { unfold crc_bit in H. rewrite <- O in H. destruct (N.odd a); [|exact H].
    apply (f_equal (fun x => N.lxor x crc_poly)) in H.
    rewrite !N.lxor_assoc, N.lxor_nilpotent, !N.lxor_0_r in H. exact H. }
  rewrite (N.div2_odd a), (N.div2_odd b), D, O. reflexivity.
Qed.

Lemma crc_bit8_inj a b : a < two64 -> b < two64 -> crc_bit8 a = crc_bit8 b -> a = b.
Proof.
  intros Ha Hb H. unfold crc_bit8 in H.
  repeat (apply crc_bit_inj in H; [|repeat apply crc_bit_lt; assumption..]). exact H.
Qed.

Lemma lxor_cancel_l a b c : N.lxor a b = N.lxor a c -> b = c.
Proof.
  intros H. apply (f_equal (N.lxor a)) in H.
  rewrite <- !N.lxor_assoc, N.lxor_nilpotent, !N.lxor_0_l in H. exact H.
Qed.

Lemma lxor_cancel_r a b c : N.lxor b a = N.lxor c a -> b = c.
Proof. rewrite !(N.lxor_comm _ a). apply lxor_cancel_l. Qed.

Lemma crc_byte_inj_state s t b : s < two64 -> t < two64 -> crc_byte s b = crc_byte t b -> s = t.
Proof.
  intros Hs Ht H. apply crc_bit8_inj in H; try (apply lxor_lt; auto using b2n_lt64).
  apply lxor_cancel_r in H. exact H.
Qed.

Lemma crc_update_inj_state l : forall s t, s < two64 -> t < two64 ->
  crc_update s l = crc_update t l -> s = t.
Proof.
  induction l as [|b l IH]; intros s t Hs Ht H; [exact H|].
  simpl in H. apply IH in H; try apply crc_byte_lt; auto.
  apply crc_byte_inj_state in H; auto.
Qed.

(** linearity: shifting a word in from above *)
Lemma crc_bit_shift s x : crc_bit (N.lxor s (N.double x)) = N.lxor (crc_bit s) x.
Proof.
  unfold crc_bit.
  assert (O : N.odd (N.lxor s (N.double x)) = N.odd s).
  { rewrite <- !N.bit0_odd, N.lxor_spec. replace (N.testbit (N.double x) 0) with false.
    - apply xorb_false_r.
    - rewrite N.double_spec. symmetry. apply N.testbit_even_0. }
  assert (D : N.div2 (N.lxor s (N.double x)) = N.lxor (N.div2 s) x).
  { rewrite !N.div2_spec, N.shiftr_lxor. f_equal.
    rewrite N.double_spec, <- N.div2_spec. apply N.div2_double. }
  rewrite O, D. destruct (N.odd s); [|reflexivity].
  rewrite !N.lxor_assoc. f_equal. apply N.lxor_comm.
Qed.

Lemma crc_bit8_shift s x : crc_bit8 (N.lxor s (256 * x)) = N.lxor (crc_bit8 s) x.
Proof.
  unfold crc_bit8.
  replace (256 * x) with (N.double (N.double (N.double (N.double (N.double (N.double (N.double (N.double x)))))))) by (rewrite !N.double_spec; lia).
  rewrite !crc_bit_shift. reflexivity.
Qed.

(** one register step for a whole little-endian word of up to 8 bytes *)
Fixpoint crc_bits (k : nat) (s : N) : N :=
  match k with O => s | S k' => crc_bits k' (crc_bit8 s) end.

Lemma crc_bits_lt k : forall s, s < two64 -> crc_bits k s < two64.
Proof. induction k; intros; simpl; auto. apply IHk, crc_bit8_lt; auto. Qed.

Lemma crc_bits_inj k : forall a b, a < two64 -> b < two64 -> crc_bits k a = crc_bits k b -> a = b.
Proof.
  induction k; intros a b Ha Hb H; simpl in H; auto.
  apply IHk in H; try apply crc_bit8_lt; auto. apply crc_bit8_inj in H; auto.
Qed.

Lemma byte_low_lxor b x : N.lxor (b2n b) (256 * x) = b2n b + 256 * x.
Proof.
  symmetry. apply N.add_nocarry_lxor. apply N.bits_inj_0. intros i.
  rewrite N.land_spec. destruct (N.lt_ge_cases i 8).
  - change 256 with (2^8). rewrite (N.mul_comm _ x), N.mul_pow2_bits_low by auto. apply andb_false_r.
  - destruct (N.eq_0_gt_0_cases (b2n b)) as [->|Hp]; [rewrite N.bits_0; reflexivity|].
    rewrite N.bits_above_log2; auto.
    assert (N.log2 (b2n b) < 8); [|lia]. apply N.log2_lt_pow2; [lia|]. apply b2n_lt.
Qed.

Lemma crc_update_word l : forall s, crc_update s l = crc_bits (List.length l) (N.lxor s (le_dec l)).
Proof.
  induction l as [|b l IH]; intros s.
  - simpl. symmetry. apply N.lxor_0_r.
  - cbn [crc_update fold_left le_dec List.length crc_bits].
    change (fold_left crc_byte l (crc_byte s b)) with (crc_update (crc_byte s b) l).
    rewrite IH. f_equal.
    rewrite <- byte_low_lxor, <- N.lxor_assoc, crc_bit8_shift. reflexivity.
Qed.

(** any two different windows of at most eight bytes drive the register to different states *)
Lemma crc_window_inj s a b : s < two64 -> List.length a = List.length b -> (List.length a <= 8)%nat ->
  crc_update s a = crc_update s b -> a = b.
Proof.
  intros Hs HL H8 H. rewrite !crc_update_word, HL in H.
  assert (W : forall l, (List.length l <= 8)%nat -> le_dec l < two64).
  { intros l Hl. eapply N.lt_le_trans; [apply le_dec_bound|].
    change two64 with (256 ^ N.of_nat 8). apply N.pow_le_mono_r; lia. }
  apply crc_bits_inj in H; try (apply lxor_lt; auto; apply W; lia).
  apply lxor_cancel_l in H.
  rewrite <- (le_enc_dec a), <- (le_enc_dec b), HL, H. reflexivity.
Qed.

(** burst-error detection *)
Lemma crc64_burst p a b q : List.length a = List.length b -> (List.length a <= 8)%nat -> a <> b ->
  crc64 (p ++ a ++ q) <> crc64 (p ++ b ++ q).
Proof.
  intros HL H8 N H. unfold crc64, crc_finish in H. apply lxor_cancel_r in H.
  rewrite !crc_update_app in H.
  assert (B : forall l s, s < two64 -> crc_update s l < two64) by (intros; apply crc_update_lt; auto).
  apply crc_update_inj_state in H; try (apply B, B, crc_new_lt).
  apply crc_window_inj in H; auto. apply B, crc_new_lt.
Qed.

Lemma crc64_app_state a b : crc64 (a ++ b) = crc_finish (crc_update (crc_update crc_new a) b).
Proof. unfold crc64. rewrite crc_update_app. reflexivity. Qed.

(** published check value of CRC-64/XZ *)
Example crc64_check : crc64 (bstr "123456789"%string) = 0x995DC9BBDF1939FA.
Proof. vm_compute. reflexivity. Qed.
