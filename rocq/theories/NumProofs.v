(** Facts about text integers (NumModel). *)
From Coq Require Import Strings.String List Arith NArith ZArith Lia Bool.
From Verif Require Import Bytes NumModel.
Import ListNotations.
Local Open Scope N_scope.

(* ------------------------------------------------------------------ *)
(** * Specification: canonical decimal text *)

(** value of a digit string read left to right *)
Definition digit_val (b : byte) : N := b2n b - 48.
Definition horner (acc : N) (ds : bytes) : N := fold_left (fun a b => a * 10 + digit_val b) ds acc.
Definition all_digits (ds : bytes) : Prop := Forall (fun b => 48 <= b2n b <= 57) ds.

(** [s] is the canonical decimal text of the natural number [n] *)
Definition dec_text (n : N) (s : bytes) : Prop :=
  s <> [] /\ all_digits s /\ horner 0 s = n /\ (hd_error s = Some x30 -> s = [x30]).

(** the same for an integer: a minus sign exactly when negative *)
Definition int_text (z : Z) (s : bytes) : Prop :=
  if (z <? 0)%Z then exists d, s = x2d :: d /\ dec_text (Z.abs_N z) d
  else dec_text (Z.to_N z) s.

Lemma horner_app acc a b : horner acc (a ++ b) = horner (horner acc a) b.
Proof. unfold horner. apply fold_left_app. Qed.

Lemma horner_cons acc b l : horner acc (b :: l) = horner (acc * 10 + digit_val b) l.
Proof. reflexivity. Qed.

Lemma horner_shift l : forall acc, horner acc l = acc * 10 ^ len l + horner 0 l.
Proof.
  induction l as [|b l IH]; intros acc.
  - cbn. unfold len. simpl. lia.
  - rewrite !horner_cons, IH, (IH (0 * 10 + digit_val b)).
    unfold len. cbn [List.length]. rewrite Nat2N.inj_succ, N.pow_succ_r'. lia.
Qed.

Lemma horner_bound l : all_digits l -> horner 0 l < 10 ^ len l.
Proof.
  induction l as [|b l IH] using rev_ind; intros H.
  - cbn. lia.
  - rewrite horner_app, horner_cons. change (horner ?x []) with x.
    apply Forall_app in H as [H1 H2]. specialize (IH H1).
    inversion H2; subst. unfold digit_val.
    unfold len in *. rewrite app_length, Nat2N.inj_add. cbn [List.length].
    rewrite N.pow_add_r. change (10 ^ N.of_nat 1) with 10. lia.
Qed.

Lemma horner_mono acc l : acc <= horner acc l.
Proof.
  rewrite horner_shift. assert (10 ^ len l <> 0) by (apply N.pow_nonzero; lia).
  nia.
Qed.

(** same length, same value: same text *)
Lemma horner_inj_len a : forall b, List.length a = List.length b ->
  all_digits a -> all_digits b -> horner 0 a = horner 0 b -> a = b.
Proof.
  induction a as [|x a IH] using rev_ind; intros b HL Ha Hb HV.
  - destruct b; [reflexivity|discriminate].
  - destruct b as [|y b _] using rev_ind; [rewrite app_length in HL; cbn in HL; lia|].
    rewrite !app_length in HL. cbn in HL.
    apply Forall_app in Ha as [Ha Hx]. apply Forall_app in Hb as [Hb Hy].
    inversion Hx; subst. inversion Hy; subst.
    rewrite !horner_app in HV. unfold horner in HV at 1 3. cbn [fold_left] in HV. unfold digit_val in HV.
    assert (horner 0 a = horner 0 b /\ b2n x = b2n y) as [E1 E2] by lia.
    rewrite (IH b); try assumption; [|lia]. apply b2n_inj in E2. subst. reflexivity.
Qed.

(** canonical text of [n] is unique *)
Lemma dec_text_len_lb b l : all_digits (b :: l) -> b <> x30 -> 10 ^ len l <= horner 0 (b :: l).
Proof.
  intros H Hb. inversion H; subst. rewrite horner_cons, horner_shift. unfold digit_val.
  assert (b2n b <> 48). { intros E. apply Hb. apply b2n_inj. exact E. }
  nia.
Qed.

Lemma dec_text_unique n s t : dec_text n s -> dec_text n t -> s = t.
Proof.
  intros (S1 & S2 & S3 & S4) (T1 & T2 & T3 & T4).
  destruct s as [|b s]; [congruence|]. destruct t as [|c t]; [congruence|]. clear S1 T1.
  cbn in S4, T4.
  destruct (byte_eq_dec b x30) as [->|Nb].
  - rewrite (S4 eq_refl) in *. change (horner 0 [x30]) with 0 in S3.
    destruct (byte_eq_dec c x30) as [->|Nc]; [symmetry; auto|].
    pose proof (dec_text_len_lb _ _ T2 Nc). rewrite T3 in H.
    assert (10 ^ len t <> 0) by (apply N.pow_nonzero; lia). lia.
  - destruct (byte_eq_dec c x30) as [->|Nc].
    + rewrite (T4 eq_refl) in *. change (horner 0 [x30]) with 0 in T3.
      pose proof (dec_text_len_lb _ _ S2 Nb). rewrite S3 in H.
      assert (10 ^ len s <> 0) by (apply N.pow_nonzero; lia). lia.
    + assert (L : List.length (b :: s) = List.length (c :: t)).
      { pose proof (dec_text_len_lb _ _ S2 Nb). pose proof (dec_text_len_lb _ _ T2 Nc).
        pose proof (horner_bound _ S2). pose proof (horner_bound _ T2).
        rewrite S3 in *. rewrite T3 in *. unfold len in *. cbn [List.length] in *.
        rewrite Nat2N.inj_succ in *.
        assert (N.of_nat (List.length s) < N.succ (N.of_nat (List.length t))).
        { apply (N.pow_lt_mono_r_iff 10); lia. }
        assert (N.of_nat (List.length t) < N.succ (N.of_nat (List.length s))).
        { apply (N.pow_lt_mono_r_iff 10); lia. }
        lia. }
      apply horner_inj_len; auto. congruence.
Qed.

Lemma int_text_unique z s t : int_text z s -> int_text z t -> s = t.
Proof.
  unfold int_text. destruct (z <? 0)%Z.
  - intros (d & -> & D) (e & -> & E). f_equal. eapply dec_text_unique; eauto.
  - apply dec_text_unique.
Qed.

Lemma dec_text_inj m n s : dec_text m s -> dec_text n s -> m = n.
Proof. intros (_&_&<-&_) (_&_&<-&_). reflexivity. Qed.

(** different numbers never share a text *)
Lemma int_text_inj y z s : int_text y s -> int_text z s -> y = z.
Proof.
  unfold int_text. destruct (y <? 0)%Z eqn:Ey; destruct (z <? 0)%Z eqn:Ez.
  - intros (d & -> & D) (e & E & F). injection E as <-. pose proof (dec_text_inj _ _ _ D F).
    apply Z.ltb_lt in Ey. apply Z.ltb_lt in Ez. lia.
  - intros (d & -> & D) (_ & F & _). inversion F; subst. cbv in H1. exfalso. destruct H1 as [H1 _]. congruence.
  - intros (_ & F & _) (d & -> & D). inversion F; subst. cbv in H1. exfalso. destruct H1 as [H1 _]. congruence.
  - intros D F. pose proof (dec_text_inj _ _ _ D F).
    apply Z.ltb_ge in Ey. apply Z.ltb_ge in Ez. lia.
Qed.

(* ------------------------------------------------------------------ *)
(** * The printer *)

(** exactly [k] digits of value [v] *)
Definition block (k : nat) (v : N) (s : bytes) : Prop :=
  List.length s = k /\ all_digits s /\ horner 0 s = v.

Lemma block_app k l u v s t : block k u s -> block l v t -> block (k + l) (u * 10 ^ N.of_nat l + v) (s ++ t).
Proof.
  intros (A & B & C) (D & E & F). split; [|split].
  - rewrite app_length. lia.
  - apply Forall_app; auto.
  - rewrite horner_app, horner_shift, C, F. unfold len. rewrite D. lia.
Qed.

Lemma lut2_spec d : d < 100 -> exists s, lut2 (N.shiftl d 1) = Some s /\ block 2 d s.
Proof.
  intros H.
  assert (C : forallb (fun k => match lut2 (N.shiftl (N.of_nat k) 1) with
                       | Some s => (Nat.eqb (List.length s) 2) && forallb is_digit s && (horner 0 s =? N.of_nat k)
                       | None => false end) (seq 0 100) = true) by (vm_compute; reflexivity).
  rewrite forallb_forall in C. specialize (C (N.to_nat d)).
  rewrite N2Nat.id in C. specialize (C ltac:(apply in_seq; lia)).
  destruct (lut2 (N.shiftl d 1)) as [s|]; [|discriminate].
  exists s. split; [reflexivity|].
  apply andb_true_iff in C as [C C3]. apply andb_true_iff in C as [C1 C2].
  apply Nat.eqb_eq in C1. apply N.eqb_eq in C3. split; [auto|split; [|auto]].
  apply Forall_forall. intros x Hx. rewrite forallb_forall in C2. specialize (C2 x Hx).
  unfold is_digit in C2. apply andb_true_iff in C2 as [P Q]. apply N.leb_le in P. apply N.leb_le in Q. lia.
Qed.

Lemma put_ok free w out : len w <= free -> put free w out = Some (free - len w, w ++ out).
Proof. intros H. unfold put. apply N.leb_le in H. rewrite H. reflexivity. Qed.

Lemma len_of k v s : block k v s -> len s = N.of_nat k.
Proof. intros (H & _). unfold len. congruence. Qed.

(** the written tail plus the pending value represent the number *)
Lemma emit4_spec fuel : forall n free out k v total,
  block k v out -> total = n * 10 ^ N.of_nat k + v ->
  n < 10000 ^ N.of_nat fuel -> total < 10 ^ (free + N.of_nat k) -> fuel <> O ->
  exists n' free' k' v' out', emit4 fuel n free out = Some (n', free', out') /\
    block k' v' out' /\ total = n' * 10 ^ N.of_nat k' + v' /\ n' < 10000 /\
    free' + N.of_nat k' = free + N.of_nat k /\ (n' = 0 -> n = 0).
Proof.
  induction fuel as [|fuel IH]; intros n free out k v total B E HF HT Hf; [congruence|].
  cbn [emit4]. destruct (N.leb_spec 10000 n) as [G|G].
  - destruct (lut2_spec (n mod 10000 / 100)) as (a & Ea & Ba).
    { apply N.div_lt_upper_bound; [lia|]. pose proof (N.mod_lt n 10000). lia. }
    destruct (lut2_spec ((n mod 10000) mod 100)) as (b & Eb & Bb).
    { apply N.mod_lt. lia. }
    rewrite Ea, Eb.
    pose proof (block_app _ _ _ _ _ _ Ba Bb) as Bab. cbn [Nat.add] in Bab.
    assert (Hv : n mod 10000 / 100 * 10 ^ N.of_nat 2 + (n mod 10000) mod 100 = n mod 10000).
    { change (10 ^ N.of_nat 2) with 100. rewrite N.mul_comm. symmetry. apply N.div_mod. lia. }
    rewrite Hv in Bab.
    pose proof (block_app _ _ _ _ _ _ Bab B) as Bn.
    pose proof (N.div_mod n 10000 ltac:(lia)) as DM.
    assert (P4 : 10 ^ N.of_nat (4 + k) = 10000 * 10 ^ N.of_nat k).
    { rewrite Nat2N.inj_add, N.pow_add_r. reflexivity. }
    assert (F4 : 4 <= free).
    { destruct (N.le_gt_cases 4 free); [assumption|exfalso].
      assert (total < 10 ^ (3 + N.of_nat k)).
      { eapply N.lt_le_trans; [exact HT|]. apply N.pow_le_mono_r; lia. }
      rewrite N.pow_add_r in H0. change (10 ^ 3) with 1000 in H0.
      subst total. nia. }
    rewrite put_ok by (rewrite (len_of _ _ _ Bab); exact F4).
    rewrite (len_of _ _ _ Bab). change (N.of_nat 4) with 4.
    destruct fuel as [|fuel'].
    { exfalso. change (10000 ^ N.of_nat 1) with 10000 in HF. lia. }
    destruct (IH (n / 10000) (free - 4) ((a ++ b) ++ out) (4 + k)%nat
               (n mod 10000 * 10 ^ N.of_nat k + v) total) as (n' & f' & k' & v' & o' & X1 & X2 & X3 & X4 & X5 & X6).
    + exact Bn.
    + rewrite P4. subst total. rewrite DM at 1. lia.
    + apply N.div_lt_upper_bound; [lia|].
      rewrite Nat2N.inj_succ, N.pow_succ_r' in HF. exact HF.
    + replace (free - 4 + N.of_nat (4 + k)) with (free + N.of_nat k) by lia. exact HT.
    + discriminate.
    + exists n', f', k', v', o'. split; [exact X1|]. split; [exact X2|]. split; [exact X3|].
      split; [exact X4|]. split; [lia|]. intros Z0. specialize (X6 Z0).
      assert (1 <= n / 10000) by (apply N.div_le_lower_bound; lia). lia.
  - exists n, free, k, v, out. split; [reflexivity|]. split; [assumption|]. split; [assumption|].
    split; [assumption|]. split; [reflexivity|]. auto.
Qed.

Lemma emit2_spec n free out k v total :
  block k v out -> total = n * 10 ^ N.of_nat k + v -> n < 10000 -> total < 10 ^ (free + N.of_nat k) ->
  exists n' free' k' v' out', emit2 n free out = Some (n', free', out') /\
    block k' v' out' /\ total = n' * 10 ^ N.of_nat k' + v' /\ n' < 100 /\
    free' + N.of_nat k' = free + N.of_nat k /\ (n' = 0 -> n = 0 /\ k' = k).
Proof.
  intros B E HF HT. unfold emit2. destruct (N.leb_spec 100 n) as [G|G].
  - destruct (lut2_spec (n mod 100)) as (a & Ea & Ba); [apply N.mod_lt; lia|].
    rewrite Ea.
    pose proof (block_app _ _ _ _ _ _ Ba B) as Bn.
    pose proof (N.div_mod n 100 ltac:(lia)) as DM.
    assert (P4 : 10 ^ N.of_nat (2 + k) = 100 * 10 ^ N.of_nat k).
    { rewrite Nat2N.inj_add, N.pow_add_r. reflexivity. }
    assert (F4 : 2 <= free).
    { destruct (N.le_gt_cases 2 free); [assumption|exfalso].
      assert (total < 10 ^ (1 + N.of_nat k)).
      { eapply N.lt_le_trans; [exact HT|]. apply N.pow_le_mono_r; lia. }
      rewrite N.pow_add_r in H0. change (10 ^ 1) with 10 in H0.
      subst total. nia. }
    rewrite put_ok by (rewrite (len_of _ _ _ Ba); exact F4).
    rewrite (len_of _ _ _ Ba). change (N.of_nat 2) with 2.
    exists (n / 100), (free - 2), (2 + k)%nat, (n mod 100 * 10 ^ N.of_nat k + v), (a ++ out).
    split; [reflexivity|]. split; [exact Bn|]. split.
    { rewrite P4. subst total. rewrite DM at 1. lia. }
    split; [apply N.div_lt_upper_bound; lia|]. split; [lia|].
    intros Z0. assert (1 <= n / 100) by (apply N.div_le_lower_bound; lia). lia.
  - exists n, free, k, v, out. auto 10.
Qed.

(** A complete text: value, digits, and no leading zero. *)
Lemma emit1_spec n free out k v total :
  block k v out -> total = n * 10 ^ N.of_nat k + v -> n < 100 -> (n = 0 -> k = O) ->
  total < 10 ^ (free + N.of_nat k) -> 1 <= free + N.of_nat k ->
  exists free' out', emit1 n free out = Some (free', out') /\
    dec_text total out' /\ free' + len out' = free + N.of_nat k.
Proof.
  intros B E HF HZ HT H1. unfold emit1. destruct (N.ltb_spec n 10) as [G|G].
  - assert (F1 : 1 <= free).
    { destruct (N.le_gt_cases 1 free); [assumption|exfalso].
      assert (free = 0) by lia. subst free. rewrite N.add_0_l in HT.
      destruct (N.eq_dec n 0) as [->|Hn]; [specialize (HZ eq_refl); subst k; cbn in H1; lia|].
      subst total. nia. }
    rewrite put_ok by exact F1. unfold len at 1. cbn [List.length]. change (N.of_nat 1) with 1.
    rewrite (N.mod_small n 256), N.mod_small by lia.
    assert (Bd : b2n (n2b (n + 48)) = n + 48) by (rewrite b2n_n2b; apply N.mod_small; lia).
    exists (free - 1), ([n2b (n + 48)] ++ out). split; [reflexivity|].
    destruct B as (L & D & V). split; [|unfold len; rewrite app_length; cbn [List.length]; lia].
    split; [discriminate|]. split.
    { constructor; [rewrite Bd; lia|assumption]. }
    split.
    { cbn [app]. rewrite horner_cons, horner_shift. unfold digit_val. rewrite Bd, V.
      unfold len. rewrite L. subst total. lia. }
    cbn [app hd_error]. intros X. injection X as X. rewrite X in Bd.
    change (b2n x30) with 48 in Bd. assert (n = 0) by lia.
    specialize (HZ H). subst k. destruct out; [|discriminate]. rewrite X. reflexivity.
  - destruct (lut2_spec n) as (a & Ea & Ba); [assumption|]. rewrite Ea.
    assert (F1 : 2 <= free).
    { destruct (N.le_gt_cases 2 free); [assumption|exfalso].
      assert (total < 10 ^ (1 + N.of_nat k)).
      { eapply N.lt_le_trans; [exact HT|]. apply N.pow_le_mono_r; lia. }
      rewrite N.pow_add_r in H0. change (10 ^ 1) with 10 in H0. subst total. nia. }
    rewrite put_ok by (rewrite (len_of _ _ _ Ba); exact F1).
    rewrite (len_of _ _ _ Ba). change (N.of_nat 2) with 2.
    exists (free - 2), (a ++ out). split; [reflexivity|].
    pose proof (block_app _ _ _ _ _ _ Ba B) as (L & D & V).
    destruct Ba as (La & Da & Va). destruct B as (Lo & Do & Vo).
    split; [|unfold len; rewrite app_length; lia].
    split; [destruct a; discriminate|]. split; [exact D|]. split; [subst total; exact V|].
    destruct a as [|a0 [|a1 [|]]]; try discriminate. cbn [app hd_error]. intros X. injection X as ->.
    exfalso. inversion Da as [|? ? _ Da']; subst. inversion Da'; subst. unfold horner in G. cbn [fold_left] in G.
    unfold digit_val in G. change (b2n x30) with 48 in G. lia.
Qed.

(** the range of each printed type *)
Definition ity_range (t : ity) (v : Z) : Prop :=
  match t with
  | IU8 => (0 <= v < 256)%Z | II8 => (-128 <= v < 128)%Z
  | IU16 => (0 <= v < 65536)%Z | II16 => (-32768 <= v < 32768)%Z
  | IU32 => (0 <= v < 4294967296)%Z | II32 => (-2147483648 <= v < 2147483648)%Z
  | IU64 => (0 <= v < 18446744073709551616)%Z
  | II64 => (-9223372036854775808 <= v < 9223372036854775808)%Z
  end.

(** absolute value actually printed *)
Lemma irep_n t v : ity_range t v ->
  (if (v <? 0)%Z
   then ((ity_cast t - 1 - Z.to_N (v mod Z.of_N (ity_cast t))) + 1) mod ity_cast t
   else Z.to_N (v mod Z.of_N (ity_cast t))) = Z.abs_N v.
Proof.
  intros R. set (c := ity_cast t).
  assert (HC : (Z.abs v < Z.of_N c)%Z /\ 0 < c).
  { unfold c; destruct t; cbn [ity_range ity_cast] in *; unfold two64; lia. }
  destruct HC as [HC Hc]. destruct (Z.ltb_spec v 0) as [L|L].
  - assert (M : (v mod Z.of_N c = v + Z.of_N c)%Z).
    { symmetry. apply (Z.mod_unique _ _ (-1)); lia. }
    rewrite M. rewrite N.mod_small by lia. lia.
  - rewrite Z.mod_small by lia. lia.
Qed.

Lemma irep_abs_bound t v : ity_range t v ->
  Z.abs_N v < 10 ^ (ity_cap t - (if (v <? 0)%Z then 1 else 0)) /\
  (ity_wide t = false -> Z.abs_N v < 10000) /\ Z.abs_N v < 10000 ^ N.of_nat 8.
Proof.
  intros R. destruct t; cbn [ity_range ity_cap ity_wide] in *;
    (destruct (Z.ltb_spec v 0) as [L|L]; [try lia|]);
    (split; [|split]); try discriminate; intros;
    match goal with |- _ < ?p => let q := eval vm_compute in p in change p with q end; lia.
Qed.

Theorem irep_spec t v : ity_range t v -> exists s, irep t v = Some s /\ int_text v s.
Proof.
  intros R. unfold irep. rewrite irep_n by assumption.
  destruct (irep_abs_bound t v R) as (H1 & H2 & H3).
  set (neg := (v <? 0)%Z) in *. set (n := Z.abs_N v) in *.
  assert (HN : 1 <= ity_cap t - (if neg then 1 else 0)).
  { destruct t, neg; vm_compute; discriminate. }
  set (c := ity_cap t) in *.
  assert (HTc : n < 10 ^ c).
  { eapply N.lt_le_trans; [exact H1|]. apply N.pow_le_mono_r; [lia|]. destruct neg; lia. }
  assert (B0 : block 0 0 []) by (split; [reflexivity|split; [constructor|reflexivity]]).
  assert (S1 : exists n1 f1 k1 v1 o1,
    (if ity_wide t then emit4 8 n c [] else Some (n, c, [])) = Some (n1, f1, o1) /\
    block k1 v1 o1 /\ n = n1 * 10 ^ N.of_nat k1 + v1 /\ n1 < 10000 /\ f1 + N.of_nat k1 = c /\
    (n1 = 0 -> k1 = O)).
  { destruct (ity_wide t) eqn:W.
    - destruct (emit4_spec 8 n c [] 0 0 n B0) as (n1 & f1 & k1 & v1 & o1 & X1 & X2 & X3 & X4 & X5 & X6);
        try assumption; try discriminate.
      + change (10 ^ N.of_nat 0) with 1. lia.
      + rewrite N.add_0_r. assumption.
      + exists n1, f1, k1, v1, o1. rewrite N.add_0_r in X5. repeat (split; [assumption|]).
        intros Z0. specialize (X6 Z0). rewrite X6 in X1. cbn in X1. injection X1 as <- <- <-.
        destruct X2 as (Y & _). cbn in Y. auto.
    - exists n, c, O, 0, []. split; [reflexivity|]. split; [assumption|].
      split; [change (10 ^ N.of_nat 0) with 1; lia|]. split; [auto|]. split; [cbn; lia|auto]. }
  destruct S1 as (n1 & f1 & k1 & v1 & o1 & E1 & B1 & T1 & L1 & F1 & Z1). rewrite E1.
  destruct (emit2_spec n1 f1 o1 k1 v1 n B1 T1 L1) as (n2 & f2 & k2 & v2 & o2 & E2 & B2 & T2 & L2 & F2 & Z2).
  { rewrite F1. assumption. }
  rewrite E2.
  destruct (emit1_spec n2 f2 o2 k2 v2 n B2 T2 L2) as (f3 & o3 & E3 & D3 & F3).
  { intros Z0. specialize (Z2 Z0) as [Z2 ->]. auto. }
  { rewrite F2, F1. assumption. }
  { rewrite F2, F1. destruct neg; lia. }
  rewrite E3. unfold int_text. fold neg.
  destruct neg eqn:NE.
  - assert (Z3 : 1 <= f3).
    { destruct (N.le_gt_cases 1 f3); [assumption|exfalso].
      assert (len o3 = c) by lia.
      destruct D3 as (D1 & D2 & D4 & D5). destruct o3 as [|b o3]; [congruence|].
      assert (n <> 0) by (unfold n; apply Z.ltb_lt in NE; lia).
      assert (b <> x30).
      { intros ->. cbn in D5. rewrite (D5 eq_refl) in D4. cbn in D4. lia. }
      pose proof (dec_text_len_lb _ _ D2 H5). rewrite D4 in H6.
      unfold len in H0, H6. cbn [List.length] in H0.
      assert (10 ^ (c - 1) <= 10 ^ N.of_nat (List.length o3)) by (apply N.pow_le_mono_r; lia).
      lia. }
    rewrite put_ok by exact Z3.
    exists ([x2d] ++ o3). split; [reflexivity|]. exists o3. split; [reflexivity|assumption].
  - exists o3. split; [reflexivity|]. replace (Z.to_N v) with n; [assumption|].
    unfold n. apply Z.ltb_ge in NE. lia.
Qed.

Lemma dec_u64_text n : n < two64 -> dec_text n (dec_u64 n).
Proof.
  intros H. unfold dec_u64. destruct (irep_spec IU64 (Z.of_N n)) as (s & E & T).
  { cbn. unfold two64 in H. lia. }
  rewrite E. unfold int_text in T. destruct (Z.ltb_spec (Z.of_N n) 0); [lia|].
  rewrite N2Z.id in T. exact T.
Qed.

Lemma dec_i64_text z : (-9223372036854775808 <= z < 9223372036854775808)%Z -> int_text z (dec_i64 z).
Proof.
  intros H. unfold dec_i64. destruct (irep_spec II64 z) as (s & E & T); [exact H|].
  rewrite E. exact T.
Qed.

(* ------------------------------------------------------------------ *)
(** * The scanners *)

Lemma digit_low4 b : 48 <= b2n b <= 57 -> is_digit b = true /\ low4 b = digit_val b /\ beq b LF = false.
Proof. destruct b; cbv -[N.le]; intros H; try (exfalso; lia); repeat split; reflexivity. Qed.

Lemma is_digit_iff b : is_digit b = true <-> 48 <= b2n b <= 57.
Proof.
  unfold is_digit. rewrite andb_true_iff, !N.leb_le. reflexivity.
Qed.

Lemma beq_refl b : beq b b = true.
Proof. apply beq_eq; reflexivity. Qed.

Lemma scan_int_done ds : forall acc r, all_digits ds -> horner acc ds < two64 ->
  scan_int (ds ++ LF :: r) acc = AccDone (horner acc ds) r.
Proof.
  induction ds as [|b ds IH]; intros acc r D H.
  - reflexivity.
  - inversion D; subst. destruct (digit_low4 _ H2) as (A & B & C).
    rewrite horner_cons in *. cbn [app scan_int]. rewrite C, A, B. cbn [negb].
    pose proof (horner_mono (acc * 10 + digit_val b) ds).
    destruct (N.leb_spec two64 (acc * 10)); [lia|].
    destruct (N.leb_spec two64 (acc * 10 + digit_val b)); [lia|].
    apply IH; assumption.
Qed.

Lemma scan_int_pend ds : forall acc, all_digits ds -> horner acc ds < two64 ->
  scan_int ds acc = AccPend (horner acc ds).
Proof.
  induction ds as [|b ds IH]; intros acc D H.
  - reflexivity.
  - inversion D; subst. destruct (digit_low4 _ H2) as (A & B & C).
    rewrite horner_cons in *. cbn [scan_int]. rewrite C, A, B. cbn [negb].
    pose proof (horner_mono (acc * 10 + digit_val b) ds).
    destruct (N.leb_spec two64 (acc * 10)); [lia|].
    destruct (N.leb_spec two64 (acc * 10 + digit_val b)); [lia|].
    apply IH; assumption.
Qed.

Lemma scan_int_done_inv rest : forall acc v r, acc < two64 -> scan_int rest acc = AccDone v r ->
  exists ds, rest = ds ++ LF :: r /\ all_digits ds /\ v = horner acc ds /\ v < two64.
Proof.
  induction rest as [|b rest IH]; intros acc v r Ha H; [discriminate|].
  cbn [scan_int] in H. destruct (beq b LF) eqn:E.
  - apply beq_eq in E. subst b. injection H as <- <-. exists []. repeat split; [constructor|assumption].
  - destruct (is_digit b) eqn:D; [|discriminate]. cbn [negb] in H.
    destruct (N.leb_spec two64 (acc * 10)); [discriminate|].
    destruct (N.leb_spec two64 (acc * 10 + low4 b)); [discriminate|].
    apply is_digit_iff in D. destruct (digit_low4 _ D) as (_ & B & _).
    apply IH in H as (ds & -> & X & Y & Z); [|assumption]. exists (b :: ds).
    split; [reflexivity|]. split; [constructor; assumption|]. rewrite horner_cons, <- B. auto.
Qed.

Lemma stop_at_lf_done ds : forall acc r, all_digits ds -> horner acc ds < two64 ->
  stop_at_lf (ds ++ LF :: r) acc = (true, horner acc ds, LF :: r).
Proof.
  induction ds as [|b ds IH]; intros acc r D H.
  - reflexivity.
  - inversion D; subst. destruct (digit_low4 _ H2) as (A & B & C).
    rewrite horner_cons in *. cbn [app stop_at_lf]. rewrite C, A, B.
    pose proof (horner_mono (acc * 10 + digit_val b) ds).
    destruct (N.leb_spec two64 (acc * 10)); [lia|].
    destruct (N.leb_spec two64 (acc * 10 + digit_val b)); [lia|].
    apply IH; assumption.
Qed.

Lemma stop_at_lf_pend ds : forall acc, all_digits ds -> horner acc ds < two64 ->
  stop_at_lf ds acc = (true, horner acc ds, []).
Proof.
  induction ds as [|b ds IH]; intros acc D H.
  - reflexivity.
  - inversion D; subst. destruct (digit_low4 _ H2) as (A & B & C).
    rewrite horner_cons in *. cbn [stop_at_lf]. rewrite C, A, B.
    pose proof (horner_mono (acc * 10 + digit_val b) ds).
    destruct (N.leb_spec two64 (acc * 10)); [lia|].
    destruct (N.leb_spec two64 (acc * 10 + digit_val b)); [lia|].
    apply IH; assumption.
Qed.

Lemma stop_at_lf_inv rest : forall acc v r, acc < two64 -> stop_at_lf rest acc = (true, v, r) ->
  exists ds, rest = ds ++ r /\ all_digits ds /\ v = horner acc ds /\ v < two64 /\
             (r = [] \/ exists r', r = LF :: r').
Proof.
  induction rest as [|b rest IH]; intros acc v r Ha H.
  - cbn in H. injection H as <- <-. exists []. repeat split; [constructor|assumption|auto].
  - cbn [stop_at_lf] in H. destruct (beq b LF) eqn:E.
    + apply beq_eq in E. subst b. injection H as <- <-. exists [].
      repeat split; [constructor|assumption|right; eauto].
    + destruct (N.leb_spec two64 (acc * 10)); [discriminate|].
      destruct (N.leb_spec two64 (acc * 10 + low4 b)); [discriminate|].
      destruct (is_digit b) eqn:D; [|discriminate].
      apply is_digit_iff in D. destruct (digit_low4 _ D) as (_ & B & _).
      apply IH in H as (ds & -> & X & Y & Z & W); [|assumption]. exists (b :: ds).
      split; [reflexivity|]. split; [constructor; assumption|]. rewrite horner_cons, <- B. auto.
Qed.

(** [lf_u64] accepts exactly a digit string below 2^64 followed by LF *)
Lemma lf_u64_val ds r : all_digits ds -> horner 0 ds < two64 -> lf_u64 (ds ++ LF :: r) = SVal (horner 0 ds) r.
Proof. intros D H. unfold lf_u64. rewrite stop_at_lf_done by assumption. reflexivity. Qed.

Lemma lf_u64_more ds : all_digits ds -> horner 0 ds < two64 -> lf_u64 ds = SMore.
Proof. intros D H. unfold lf_u64. rewrite stop_at_lf_pend by assumption. reflexivity. Qed.

Lemma lf_u64_val_inv rest v r : lf_u64 rest = SVal v r ->
  exists ds, rest = ds ++ LF :: r /\ all_digits ds /\ v = horner 0 ds /\ v < two64.
Proof.
  unfold lf_u64. destruct (stop_at_lf rest 0) as [[ok w] q] eqn:E. destruct ok; [|discriminate].
  apply stop_at_lf_inv in E as (ds & -> & X & Y & Z & W); [|reflexivity].
  destruct q as [|b q]; [discriminate|]. destruct W as [W|(q' & W)]; [discriminate|].
  injection W as -> <-. rewrite beq_refl. intros H. injection H as <- <-.
  exists ds. auto.
Qed.

Lemma lf_u64_more_inv rest : lf_u64 rest = SMore -> all_digits rest /\ horner 0 rest < two64.
Proof.
  unfold lf_u64. destruct (stop_at_lf rest 0) as [[ok w] q] eqn:E. destruct ok; [|discriminate].
  apply stop_at_lf_inv in E as (ds & -> & X & Y & Z & W); [|reflexivity].
  destruct W as [->|(q' & ->)]; [rewrite app_nil_r; subst; auto|].
  rewrite beq_refl. discriminate.
Qed.

(** digit strings and the terminator are uniquely separated *)
Lemma digits_lf_inj ds : forall ds' r r', all_digits ds -> all_digits ds' ->
  ds ++ LF :: r = ds' ++ LF :: r' -> ds = ds' /\ r = r'.
Proof.
  induction ds as [|b ds IH]; intros [|c ds'] r r' D D' H; cbn in H.
  - injection H as ->. auto.
  - injection H as E1 E2. inversion D'; subst. exfalso. cbv in H1. destruct H1. congruence.
  - injection H as E1 E2. inversion D; subst. exfalso. cbv in H1. destruct H1. congruence.
  - injection H as -> E. inversion D; inversion D'; subst. destruct (IH _ _ _ H2 H6 E) as [-> ->]. auto.
Qed.
