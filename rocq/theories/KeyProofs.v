(** Proofs for C88. *)
From Coq Require Import List NArith Bool Lia.
From Verif Require Import Bytes DataModel RowModel RowTable KeyModel KeySpec.
Import ListNotations.
Local Open Scope N_scope.

Lemma rd_at m p b : at_addr m p b -> rd m p (len b) = Some b.
Proof.
  intros (P & B). unfold rd. destruct (N.eqb_spec p 0) as [E|_]; [contradiction|].
  destruct (N.eqb_spec (len b) 0) as [E|E].
  - unfold len in E. destruct b; [reflexivity|cbn in E; lia].
  - destruct B as [->|B]; [unfold len in E; cbn in E; lia|]. rewrite B. rewrite N.leb_refl. unfold len. rewrite Nnat.Nat2N.id, firstn_all. reflexivity.
Qed.
Lemma zero_ok m l : rd m zero_block (l * 0) = Some [].
Proof. rewrite N.mul_0_r. reflexivity. Qed.
Lemma vblock_ok m k v : is_key m k v -> vblock m k = Some (body_of v).
Proof.
  intros [w|w|p b A|p b A]; unfold vblock, vlen; cbn [kt kq kn tu_wide tu_code body_of]; try apply zero_ok; change (tu_wide TuBin) with true; change (tu_wide TuStr) with true; cbn; rewrite N.mul_1_r; apply rd_at; exact A.
Qed.

(** the tag of a key is the kind of its value *)
Definition tag_of (v : pkey) : tuniq :=
  match v with PkUInt _ => TuUInt | PkSInt _ => TuSInt | PkBin _ => TuBin | PkStr _ => TuStr | PkNull => TuIllegal end.
Definition word_of (v : pkey) : N := match v with PkUInt w | PkSInt w => w | PkBin b | PkStr b => len b | PkNull => 0 end.
Lemma key_words m k v : is_key m k v -> kt k = tag_of v /\ kq k = word_of v.
Proof. intros [w|w|p b A|p b A]; split; reflexivity. Qed.
Lemma lit_words m l v : is_lit m l v -> lit_key v <> PkNull ->
  tsel_uniq (lt l) = tag_of (lit_key v) /\ lq l = word_of (lit_key v) /\ lit_vdata m l = Some (body_of (lit_key v)).
Proof.
  intros [w|w|w|o|p b A|p b A] N; cbn [lit_key] in *; try (exfalso; apply N; reflexivity); split; try reflexivity; split; try reflexivity; unfold lit_vdata; cbn [lt lq ln tsel_uniq body_of];
    [change (tu_wide TuUInt) with false|change (tu_wide TuSInt) with false|change (tu_wide TuBin) with true|change (tu_wide TuStr) with true]; cbv iota; try apply zero_ok; rewrite N.mul_1_r; apply rd_at; exact A.
Qed.
Lemma tag_inj a b : tu_eqb (tag_of a) (tag_of b) = true <-> tag_of a = tag_of b.
Proof. destruct a; destruct b; cbn; split; intros H; try reflexivity; discriminate H. Qed.
(** the comparison of tag, word and bytes *)
Lemma same_parts a b : (if tu_eqb (tag_of a) (tag_of b) && (word_of a =? word_of b) then bseq (body_of a) (body_of b) else false) = pkey_eqb a b.
Proof.
  destruct a as [x|x|x|x|]; destruct b as [y|y|y|y|]; try reflexivity; cbn [tag_of word_of body_of pkey_eqb];
    try (change (tu_eqb TuUInt TuUInt) with true); try (change (tu_eqb TuSInt TuSInt) with true); try (change (tu_eqb TuBin TuBin) with true); try (change (tu_eqb TuStr TuStr) with true); cbn [andb];
    try (destruct (x =? y); reflexivity); destruct (N.eqb_spec (len x) (len y)) as [E|E]; try reflexivity; destruct (bseq x y) eqn:B; try reflexivity; apply bseq_eq in B; subst; contradiction E; reflexivity.
Qed.
Lemma key_eq_ok m a b x y : is_key m a x -> is_key m b y -> key_eq m a b = Some (pkey_eqb x y).
Proof.
  intros A B. unfold key_eq. destruct (key_words _ _ _ A) as (-> & ->). destruct (key_words _ _ _ B) as (-> & ->). rewrite (vblock_ok _ _ _ A), (vblock_ok _ _ _ B). cbn [cmp_slices].
  rewrite <- same_parts. destruct (_ && _); reflexivity.
Qed.
Lemma key_eq_lit_ok m k l x y : is_key m k x -> is_lit m l y -> lit_key y <> PkNull -> key_eq_lit m k l = Some (pkey_eqb x (lit_key y)).
Proof.
  intros A B N. unfold key_eq_lit. destruct (key_words _ _ _ A) as (-> & ->). destruct (lit_words _ _ _ B N) as (-> & -> & ->). rewrite (vblock_ok _ _ _ A). cbn [cmp_slices].
  rewrite <- same_parts. destruct (_ && _); reflexivity.
Qed.
(** what goes to the hasher, by value *)
Definition feed_of (v : pkey) : list hcall := HDisc (tu_code (tag_of v)) :: slice_feed (body_of v).
Lemma key_feed_ok m k v : is_key m k v -> key_feed m k = Some (feed_of v).
Proof. intros A. unfold key_feed. rewrite (vblock_ok _ _ _ A). destruct (key_words _ _ _ A) as (-> & _). reflexivity. Qed.
Lemma lit_feed_ok m l v : is_lit m l v -> lit_key v <> PkNull -> lit_feed m l = Some (feed_of (lit_key v)).
Proof. intros A N. unfold lit_feed. destruct (lit_words _ _ _ A N) as (-> & _ & ->). reflexivity. Qed.
Lemma made_ok m d c : is_cell m d c -> cell_key c <> PkNull -> is_key m (key_of_dc d) (cell_key c).
Proof.
  intros [|o|q w|p b A|p b A] N; cbn [cell_key] in *; try (exfalso; apply N; reflexivity); unfold key_of_dc; cbn [dt dq dn].
  - destruct q; cbn in *; try (exfalso; apply N; reflexivity); constructor.
  - apply IkB. exact A.
  - apply IkT. exact A.
Qed.
Lemma read_back_ok m k v t : is_key m k v -> tsel_uniq t = tag_of v -> dc_value m (vdc_pk k t) = Some (pk_cell t v).
Proof.
  intros [w|w|p b A|p b A] T; destruct t; cbn in T; try discriminate T; unfold dc_value, vdc_pk; cbn; try reflexivity; rewrite (rd_at _ _ _ A); reflexivity.
Qed.
