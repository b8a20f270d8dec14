(** Byte strings and fixed-width little-endian integers.

    Rust's [u64::to_le_bytes]/[u64::from_le_bytes] (and the u128/u16 versions) are modelled by
    [le_enc]/[le_dec]; [&[u8]]/[Vec<u8>] by [list byte]; unsigned machine integers by [N] together
    with an explicit bound where it matters. *)
From Coq Require Import List NArith ZArith Lia Bool.
From Coq Require Export Init.Byte Strings.Byte.
From Coq Require Import Strings.String.
Import ListNotations.
Local Open Scope N_scope.

Definition bytes := list byte.

(** [u8 as u64] : Rust integer widening. *)
Definition b2n (b : byte) : N := Byte.to_N b.

(** [n as u8] : Rust integer truncation. *)
Definition n2b (n : N) : byte :=
  match Byte.of_N (n mod 256) with Some b => b | None => x00 end.

(** byte literals: [b"..."] in Rust. *)
Definition bstr (s : string) : bytes := list_byte_of_string s.

Definition beq (a b : byte) : bool := Byte.eqb a b.

Fixpoint bseq (a b : bytes) : bool :=
  match a, b with
  | [], [] => true
  | x :: a', y :: b' => beq x y && bseq a' b'
  | _, _ => false
  end.

(** [to_le_bytes] for a [k]-byte integer. *)
Fixpoint le_enc (k : nat) (n : N) : bytes :=
  match k with
  | O => []
  | S k' => n2b n :: le_enc k' (n / 256)
  end.

(** [from_le_bytes]. *)
Fixpoint le_dec (l : bytes) : N :=
  match l with
  | [] => 0
  | b :: l' => b2n b + 256 * le_dec l'
  end.

Definition u64_le (n : N) : bytes := le_enc 8 n.
Definition u128_le (n : N) : bytes := le_enc 16 n.
Definition u16_le (n : N) : bytes := le_enc 2 n.

Definition len (l : bytes) : N := N.of_nat (List.length l).

(** the range of u64 / usize on the 64-bit targets the server is built for. *)
Definition two64 : N := 18446744073709551616.
Definition two128 : N := 340282366920938463463374607431768211456.

(** split off exactly [k] bytes; [None] when fewer remain *)
Definition take (k : nat) (l : bytes) : option (bytes * bytes) :=
  if (k <=? List.length l)%nat then Some (firstn k l, skipn k l) else None.

(** the same with a machine-integer count, so that a huge declared length never becomes a unary
    number unless that many bytes exist *)
Definition takeN (k : N) (l : bytes) : option (bytes * bytes) :=
  if k <=? len l then Some (firstn (N.to_nat k) l, skipn (N.to_nat k) l) else None.

(* ------------------------------------------------------------------ *)
(** * Lemmas *)

Lemma b2n_lt b : b2n b < 256.
Proof. unfold b2n. pose proof (Byte.to_N_bounded b). lia. Qed.

Lemma b2n_n2b n : b2n (n2b n) = n mod 256.
Proof.
  unfold b2n, n2b.
  assert (H : n mod 256 < 256) by (apply N.mod_lt; lia).
  destruct (Byte.of_N (n mod 256)) eqn:E.
  - apply Byte.to_of_N in E. exact E.
  - apply Byte.of_N_None_iff in E. lia.
Qed.

Lemma n2b_b2n b : n2b (b2n b) = b.
Proof.
  unfold n2b, b2n. rewrite N.mod_small by (pose proof (Byte.to_N_bounded b); lia).
  rewrite Byte.of_to_N. reflexivity.
Qed.

Lemma b2n_inj a b : b2n a = b2n b -> a = b.
Proof. intros H. rewrite <- (n2b_b2n a), <- (n2b_b2n b), H. reflexivity. Qed.

Lemma beq_eq a b : beq a b = true <-> a = b.
Proof.
  unfold beq. split; intros H.
  - apply Byte.byte_dec_bl; exact H.
  - apply Byte.byte_dec_lb; exact H.
Qed.

Lemma bseq_eq a : forall b, bseq a b = true <-> a = b.
Proof.
  induction a as [|x a IH]; destruct b as [|y b]; simpl; try (split; congruence).
  rewrite andb_true_iff, beq_eq, IH. split; [intros [-> ->]; reflexivity|].
  intros H; inversion H; auto.
Qed.

Lemma bseq_refl a : bseq a a = true.
Proof. apply bseq_eq; reflexivity. Qed.

Lemma bseq_neq a b : bseq a b = false <-> a <> b.
Proof.
  destruct (bseq a b) eqn:E.
  - apply bseq_eq in E. split; congruence.
  - split; auto. intros _ H. apply bseq_eq in H. congruence.
Qed.

Definition byte_eq_dec (a b : byte) : {a = b} + {a <> b} := Byte.byte_eq_dec a b.
Definition bytes_eq_dec (a b : bytes) : {a = b} + {a <> b} := list_eq_dec Byte.byte_eq_dec a b.

Lemma le_enc_length k n : List.length (le_enc k n) = k.
Proof. revert n; induction k; intros; simpl; auto. Qed.

Lemma le_dec_enc_mod k n : le_dec (le_enc k n) = n mod (256 ^ N.of_nat k).
Proof.
  revert n. induction k as [|k IH]; intros n.
  - simpl. rewrite N.mod_1_r. reflexivity.
  - cbn [le_enc le_dec]. rewrite IH, b2n_n2b.
    rewrite Nat2N.inj_succ, N.pow_succ_r'.
    rewrite N.mod_mul_r by (try apply N.pow_nonzero; lia). lia.
Qed.

Lemma le_dec_enc k n : n < 256 ^ N.of_nat k -> le_dec (le_enc k n) = n.
Proof. intros. rewrite le_dec_enc_mod. apply N.mod_small; auto. Qed.

Lemma le_dec_bound l : le_dec l < 256 ^ N.of_nat (List.length l).
Proof.
  induction l as [|b l IH].
  - simpl. lia.
  - cbn [le_dec List.length]. rewrite Nat2N.inj_succ, N.pow_succ_r'.
    pose proof (b2n_lt b). lia.
Qed.

Lemma le_enc_dec l : le_enc (List.length l) (le_dec l) = l.
Proof.
  induction l as [|b l IH]; [reflexivity|].
  cbn [le_dec List.length le_enc].
  pose proof (b2n_lt b).
  f_equal.
  - apply b2n_inj. rewrite b2n_n2b. rewrite N.mul_comm, N.mod_add by lia. apply N.mod_small; auto.
  - rewrite N.mul_comm, N.div_add by lia. rewrite N.div_small by auto. exact IH.
Qed.

Lemma le_enc_dec_k k l : List.length l = k -> le_enc k (le_dec l) = l.
Proof. intros <-. apply le_enc_dec. Qed.

Lemma le_enc_inj k a b : a < 256 ^ N.of_nat k -> b < 256 ^ N.of_nat k ->
  le_enc k a = le_enc k b -> a = b.
Proof.
  intros Ha Hb H. rewrite <- (le_dec_enc k a Ha), <- (le_dec_enc k b Hb), H. reflexivity.
Qed.

Lemma u64_len n : List.length (u64_le n) = 8%nat.
Proof. apply le_enc_length. Qed.
Lemma u128_len n : List.length (u128_le n) = 16%nat.
Proof. apply le_enc_length. Qed.
Lemma u64_dec n : n < two64 -> le_dec (u64_le n) = n.
Proof. intros. apply le_dec_enc. exact H. Qed.
Lemma u128_dec n : n < two128 -> le_dec (u128_le n) = n.
Proof. intros. apply le_dec_enc. exact H. Qed.
Lemma u64_dec_bound l : List.length l = 8%nat -> le_dec l < two64.
Proof. intros H. pose proof (le_dec_bound l) as B. rewrite H in B. exact B. Qed.
Lemma u128_dec_bound l : List.length l = 16%nat -> le_dec l < two128.
Proof. intros H. pose proof (le_dec_bound l) as B. rewrite H in B. exact B. Qed.
Lemma u64_enc_dec l : List.length l = 8%nat -> u64_le (le_dec l) = l.
Proof. intros. apply le_enc_dec_k; auto. Qed.

Lemma len_app a b : len (a ++ b) = len a + len b.
Proof. unfold len. rewrite app_length. lia. Qed.

Lemma len_nil : len [] = 0.
Proof. reflexivity. Qed.
Lemma len_cons x l : len (x :: l) = 1 + len l.
Proof. unfold len. simpl List.length. lia. Qed.

Lemma take_app a b : take (List.length a) (a ++ b) = Some (a, b).
Proof.
  unfold take. rewrite app_length.
  destruct (Nat.leb_spec (List.length a) (List.length a + List.length b)); [|lia].
  rewrite firstn_app, skipn_app, Nat.sub_diag, firstn_all, skipn_all. simpl.
  rewrite app_nil_r. reflexivity.
Qed.

Lemma take_app_k k a b : List.length a = k -> take k (a ++ b) = Some (a, b).
Proof. intros <-. apply take_app. Qed.

Lemma take_some k l a b : take k l = Some (a, b) -> l = a ++ b /\ List.length a = k.
Proof.
  unfold take. destruct (Nat.leb_spec k (List.length l)); [|discriminate].
  intros E; inversion E; subst. rewrite firstn_skipn, firstn_length. split; auto. lia.
Qed.

Lemma take_none k l : take k l = None <-> (List.length l < k)%nat.
Proof.
  unfold take. destruct (Nat.leb_spec k (List.length l)); split; try discriminate; auto; lia.
Qed.

Lemma takeN_app a b : takeN (len a) (a ++ b) = Some (a, b).
Proof.
  unfold takeN. rewrite len_app.
  destruct (N.leb_spec (len a) (len a + len b)); [|lia].
  unfold len. rewrite Nat2N.id.
  rewrite firstn_app, skipn_app, Nat.sub_diag, firstn_all, skipn_all. simpl.
  rewrite app_nil_r. reflexivity.
Qed.

Lemma takeN_some k l a b : takeN k l = Some (a, b) -> l = a ++ b /\ len a = k.
Proof.
  unfold takeN. destruct (N.leb_spec k (len l)) as [H|]; [|discriminate].
  intros E; inversion E; subst. rewrite firstn_skipn. split; auto.
  unfold len in *. rewrite firstn_length. lia.
Qed.

Lemma takeN_none k l : takeN k l = None <-> len l < k.
Proof.
  unfold takeN. destruct (N.leb_spec k (len l)); split; try discriminate; auto; lia.
Qed.

Lemma app_inj_len {A} (a b c d : list A) :
  List.length a = List.length c -> a ++ b = c ++ d -> a = c /\ b = d.
Proof.
  revert c; induction a as [|x a IH]; destruct c as [|y c]; simpl; intros HL H; try discriminate.
  - auto.
  - inversion H; subst. destruct (IH c) as [-> ->]; auto.
Qed.
