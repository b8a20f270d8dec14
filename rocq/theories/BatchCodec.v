(** The bytes of a batch of row changes (BatchModel.v): what the reader accepts is exactly what the
    writer writes. *)
From Coq Require Import List Arith NArith Lia Bool.
From Verif Require Import Bytes AMap DataModel CodecModel CodecProofs CrcModel CrcProofs WriterModel
  WriterProofs JournalModel GnsCodecModel GnsModel RowModel BatchModel.
Import ListNotations.
Local Open Scope N_scope.

Section Codec.
Variable utf8 : bytes -> bool.

(** a key that a column with tag [t] can hold *)
Definition key_wf (t : tuniq) (k : pkey) : Prop :=
  match t, k with
  | TuUInt, PkUInt w => w < two64
  | TuSInt, PkSInt w => w < two64
  | TuBin, PkBin b => len b < two64
  | TuStr, PkStr b => len b < two64 /\ utf8 b = true
  | _, _ => False
  end.

(** an event of a batch with key tag [t] and [cols] columns besides the key *)
Definition bev_wf (t : tuniq) (cols : N) (e : bev) : Prop :=
  be_txn e < two64 /\ key_wf t (be_key e) /\
  match be_kind e with
  | DkDelete => be_cells e = []
  | _ => N.of_nat (length (be_cells e)) = cols /\ Forall (cell_wf utf8) (be_cells e)
  end.

(** a batch that the server can write *)
Definition batch_wf (b : batch) : Prop :=
  ba_want b < two64 /\ ev_count b <= ba_want b /\ ba_tag b <> TuIllegal /\ ba_schema b < two64 /\
  ba_cols b < two64 /\ Forall (bev_wf (ba_tag b) (ba_cols b)) (ba_evs b).

(** the batch as bytes, with its checksum *)
Definition batch_bytes (b : batch) : bytes := enc_body b ++ u64_le (crc64 (enc_body b)).

(** *** reading what was written *)
Lemma dec_pkey_enc t k r : key_wf t k -> dec_pkey utf8 t (concat (key_pieces k) ++ r) = ROk (k, r).
Proof.
  destruct t, k; cbn [key_wf]; intros H; try contradiction; cbn [key_pieces concat dec_pkey];
    rewrite ?app_nil_r, <- ?app_assoc.
  - rewrite rd_u64_app by auto. reflexivity.
  - rewrite rd_u64_app by auto. reflexivity.
  - rewrite rd_u64_app by auto. cbn [rbind]. rewrite rd_block_app. reflexivity.
  - destruct H as [H U]. rewrite rd_u64_app by auto. cbn [rbind]. rewrite rd_block_app. cbn [rbind].
    rewrite U. reflexivity.
Qed.

Lemma dec_cells_enc cs : Forall (cell_wf utf8) cs -> forall f r,
  (length (concat (map enc_full cs)) < f)%nat ->
  dec_cells utf8 f (N.of_nat (length cs)) (concat (map enc_full cs) ++ r) = ROk (cs, r).
Proof.
  induction 1 as [|c cs W _ IH]; intros f r HF; destruct f as [|f]; try lia.
  - reflexivity.
  - cbn [map concat] in *. rewrite app_length in HF. cbn [dec_cells].
    destruct (N.eqb_spec (N.of_nat (length (c :: cs))) 0) as [E|_]; [cbn [length] in E; lia|].
    unfold enc_full at 1. cbn [app rd_byte rbind]. rewrite enc_tag_valid. cbn [negb].
    rewrite <- app_assoc, dec_cell_roundtrip by auto. cbn [rbind].
    replace (N.of_nat (length (c :: cs)) - 1) with (N.of_nat (length cs)) by (cbn [length]; lia).
    rewrite IH by (unfold enc_full at 1 in HF; cbn [length] in HF; lia). reflexivity.
Qed.

Lemma kind_code_n k : b2n (kind_code k) = match k with DkDelete => 0 | DkInsert => 1 | DkUpdate => 2 end.
Proof. destruct k; reflexivity. Qed.

Lemma enc_bev_split e : enc_bev e =
  kind_code (be_kind e) :: u64_le (be_txn e) ++ concat (key_pieces (be_key e)) ++ concat (map enc_full (be_cells e)).
Proof. unfold enc_bev, ev_pieces. cbn [concat app]. rewrite concat_app. reflexivity. Qed.

Lemma dec_bev_enc t cols e r : bev_wf t cols e ->
  dec_bev utf8 t cols (kind_code (be_kind e))
    (u64_le (be_txn e) ++ concat (key_pieces (be_key e)) ++ concat (map enc_full (be_cells e)) ++ r) = ROk (e, r).
Proof.
  destruct e as [k tx key cs]. unfold bev_wf. cbn [be_kind be_txn be_key be_cells]. intros (T & K & C).
  unfold dec_bev. rewrite rd_u64_app by auto. cbn [rbind]. rewrite dec_pkey_enc by auto. cbn [rbind].
  rewrite kind_code_n. destruct k.
  1: rewrite C; reflexivity.
  all: destruct C as [L W]; rewrite <- L, dec_cells_enc by (auto; rewrite app_length; lia); reflexivity.
Qed.

Lemma dec_evs_enc t cols es : Forall (bev_wf t cols) es -> forall f want r,
  N.of_nat (length es) <= want -> (length (concat (map enc_bev es)) < f)%nat ->
  dec_evs utf8 f t cols want (concat (map enc_bev es) ++ (if N.of_nat (length es) =? want then [] else [x03]) ++ r)
  = ROk (es, r).
Proof.
  induction 1 as [|e es W _ IH]; intros f want r HL HF; destruct f as [|f]; try lia.
  - cbn [map concat app dec_evs length]. change (N.of_nat 0) with 0.
    destruct (N.eqb_spec want 0) as [->|N0]; [reflexivity|].
    destruct (N.eqb_spec 0 want) as [E|_]; [congruence|]. reflexivity.
  - cbn [map concat] in *. rewrite app_length in HF. cbn [dec_evs]. cbn [length] in HL.
    destruct (N.eqb_spec want 0) as [E|_]; [lia|].
    rewrite enc_bev_split, <- !app_assoc. cbn [app rd_byte rbind].
    replace (3 <? b2n (kind_code (be_kind e))) with false by (destruct (be_kind e); reflexivity).
    replace (b2n (kind_code (be_kind e)) =? 3) with false by (destruct (be_kind e); reflexivity).
    rewrite <- !app_assoc, dec_bev_enc by auto. cbn [rbind].
    replace (N.of_nat (length (e :: es)) =? want) with (N.of_nat (length es) =? want - 1)
      by (cbn [length]; destruct (N.eqb_spec (N.of_nat (length es)) (want - 1));
          destruct (N.eqb_spec (N.of_nat (S (length es))) want); auto; lia).
    rewrite IH; [reflexivity|lia|]. rewrite enc_bev_split in HF. cbn [length] in HF. lia.
Qed.

Lemma dec_tuniq_code t : t <> TuIllegal -> dec_tuniq (tuniq_code t) = ROk t.
Proof. destruct t; intros H; [reflexivity..|congruence]. Qed.

Lemma enc_body_split b : enc_body b =
  u64_le (ba_want b) ++ [tuniq_code (ba_tag b)] ++ u64_le (ba_schema b) ++ u64_le (ba_cols b) ++
  concat (map enc_bev (ba_evs b)) ++ (if ev_count b =? ba_want b then [] else [x03]) ++ u64_le (ev_count b).
Proof.
  unfold enc_body, head_pieces, tail_pieces. cbn [concat]. rewrite concat_app. cbn [concat].
  rewrite !app_nil_r, <- !app_assoc. repeat f_equal. destruct (ev_count b =? ba_want b); reflexivity.
Qed.

Theorem dec_body_enc b r : batch_wf b -> dec_body utf8 (enc_body b ++ r) = ROk (b, r).
Proof.
  destruct b as [want t sv cols es]. intros (W & C & T & V & K & E).
  cbn [ba_want ba_tag ba_schema ba_cols ba_evs] in *. rewrite enc_body_split, <- !app_assoc.
  unfold ev_count in *. cbn [ba_want ba_tag ba_schema ba_cols ba_evs] in *.
  unfold dec_body. rewrite rd_u64_app by auto. cbn [rbind app rd_byte]. rewrite dec_tuniq_code by auto. cbn [rbind].
  rewrite rd_u64_app by auto. cbn [rbind]. rewrite rd_u64_app by auto. cbn [rbind].
  rewrite dec_evs_enc by (auto; rewrite app_length; lia). cbn [rbind].
  rewrite rd_u64_app by lia. cbn [rbind]. rewrite N.eqb_refl. reflexivity.
Qed.

(** *** what is accepted was written *)
Lemma dec_pkey_inv t l k l' : dec_pkey utf8 t l = ROk (k, l') -> l = concat (key_pieces k) ++ l' /\ key_wf t k.
Proof.
  destruct t; cbn [dec_pkey]; try discriminate; destruct (rd_u64 SrcRead l) as [[n l1]| | |] eqn:R; try discriminate;
    cbn [rbind]; apply rd_u64_ok in R as [-> B].
  - intros H; injection H as <- <-. cbn [key_pieces concat]. rewrite app_nil_r. split; auto.
  - intros H; injection H as <- <-. cbn [key_pieces concat]. rewrite app_nil_r. split; auto.
  - destruct (rd_block SrcRead n l1) as [[b l2]| | |] eqn:R; try discriminate. cbn [rbind].
    apply rd_block_ok in R as [-> <-]. intros H; injection H as <- <-.
    cbn [key_pieces concat]. rewrite app_nil_r, <- app_assoc. split; auto.
  - destruct (rd_block SrcRead n l1) as [[b l2]| | |] eqn:R; try discriminate. cbn [rbind].
    apply rd_block_ok in R as [-> <-]. destruct (utf8 b) eqn:U; [|discriminate].
    intros H; injection H as <- <-. cbn [key_pieces concat]. rewrite app_nil_r, <- app_assoc. repeat split; auto.
Qed.

Lemma dec_cells_inv f : forall n l cs l', dec_cells utf8 f n l = ROk (cs, l') ->
  l = concat (map enc_full cs) ++ l' /\ n = N.of_nat (length cs) /\ Forall (cell_wf utf8) cs.
Proof.
  induction f as [|f IH]; intros n l cs l'; cbn [dec_cells]; [discriminate|].
  destruct (N.eqb_spec n 0) as [->|N0].
  - intros H; injection H as <- <-. repeat split; auto.
  - destruct (rd_byte SrcRead l) as [[b l1]| | |] eqn:R; try discriminate. cbn [rbind].
    apply rd_byte_ok in R. destruct (dscr_valid (b2n b)) eqn:V; [|discriminate]. cbn [negb].
    destruct (dec_cell utf8 SrcRead (b2n b) l1) as [[c l2]| | |] eqn:D; try discriminate. cbn [rbind].
    apply dec_cell_inv in D as (D1 & D2 & D3). 2:{ unfold dscr_valid in V. apply N.leb_le in V. exact V. }
    apply b2n_inj in D1.
    destruct (dec_cells utf8 f (n - 1) l2) as [[cs' l3]| | |] eqn:R2; try discriminate. cbn [rbind].
    apply IH in R2 as (R3 & R4 & R5). intros H; injection H as <- <-.
    split; [|split].
    + cbn [map concat]. unfold enc_full at 1. cbn [app]. rewrite R, D1, D2, R3, <- app_assoc. reflexivity.
    + cbn [length]. lia.
    + constructor; auto.
Qed.

Lemma dec_bev_inv t cols k l e l' : b2n k < 3 -> dec_bev utf8 t cols k l = ROk (e, l') ->
  k :: l = enc_bev e ++ l' /\ bev_wf t cols e.
Proof.
  unfold dec_bev. intros HK. destruct (rd_u64 SrcRead l) as [[tx l1]| | |] eqn:R; try discriminate. cbn [rbind].
  apply rd_u64_ok in R as [-> B]. destruct (dec_pkey utf8 t l1) as [[key l2]| | |] eqn:P; try discriminate. cbn [rbind].
  apply dec_pkey_inv in P as [-> KW].
  assert (C : k = kind_code DkDelete \/ k = kind_code DkInsert \/ k = kind_code DkUpdate).
  { assert (b2n k = 0 \/ b2n k = 1 \/ b2n k = 2) as [Q|[Q|Q]] by lia; [left|right; left|right; right];
      apply b2n_inj; rewrite kind_code_n; exact Q. }
  destruct C as [->|[->| ->]]; cbn [kind_code].
  - intros H; injection H as <- <-. rewrite enc_bev_split.
    cbn [be_kind be_txn be_key be_cells kind_code map concat]. rewrite app_nil_r. cbn [app]. rewrite <- app_assoc.
    split; [reflexivity|]. unfold bev_wf. cbn [be_kind be_txn be_key be_cells]. auto.
  - change (b2n x01) with 1. destruct (dec_cells utf8 _ cols l2) as [[cs l3]| | |] eqn:D; try discriminate. cbn [rbind].
    apply dec_cells_inv in D as (-> & D2 & D3). intros H; injection H as <- <-. rewrite enc_bev_split.
    cbn [be_kind be_txn be_key be_cells kind_code]. cbn [app]. rewrite <- !app_assoc.
    split; [reflexivity|]. unfold bev_wf. cbn [be_kind be_txn be_key be_cells]. auto.
  - change (b2n x02) with 2. destruct (dec_cells utf8 _ cols l2) as [[cs l3]| | |] eqn:D; try discriminate. cbn [rbind].
    apply dec_cells_inv in D as (-> & D2 & D3). intros H; injection H as <- <-. rewrite enc_bev_split.
    cbn [be_kind be_txn be_key be_cells kind_code]. cbn [app]. rewrite <- !app_assoc.
    split; [reflexivity|]. unfold bev_wf. cbn [be_kind be_txn be_key be_cells]. auto.
Qed.

Lemma dec_evs_inv f : forall t cols n l es l', dec_evs utf8 f t cols n l = ROk (es, l') ->
  l = concat (map enc_bev es) ++ (if N.of_nat (length es) =? n then [] else [x03]) ++ l' /\
  N.of_nat (length es) <= n /\ Forall (bev_wf t cols) es.
Proof.
  induction f as [|f IH]; intros t cols n l es l'; cbn [dec_evs]; [discriminate|].
  destruct (N.eqb_spec n 0) as [->|N0].
  - intros H; injection H as <- <-. repeat split; auto. cbn. lia.
  - destruct (rd_byte SrcRead l) as [[k l1]| | |] eqn:R; try discriminate. cbn [rbind].
    apply rd_byte_ok in R. destruct (N.ltb_spec 3 (b2n k)) as [L|L]; [discriminate|].
    destruct (N.eqb_spec (b2n k) 3) as [E3|E3].
    + intros H; injection H as <- <-. change (N.of_nat (length (@nil bev))) with 0.
      destruct (N.eqb_spec 0 n) as [E|_]; [congruence|]. repeat split; auto; [|lia].
      rewrite R. apply (b2n_inj k x03) in E3. rewrite E3. reflexivity.
    + destruct (dec_bev utf8 t cols k l1) as [[e l2]| | |] eqn:D; try discriminate. cbn [rbind].
      apply dec_bev_inv in D as [D1 D2]; [|lia].
      destruct (dec_evs utf8 f t cols (n - 1) l2) as [[es' l3]| | |] eqn:R2; try discriminate. cbn [rbind].
      apply IH in R2 as (R3 & R4 & R5). intros H; injection H as <- <-.
      cbn [length map concat]. repeat split; auto; [|lia].
      rewrite R, D1, R3, <- !app_assoc. do 3 f_equal.
      destruct (N.eqb_spec (N.of_nat (length es')) (n - 1)); destruct (N.eqb_spec (N.of_nat (S (length es'))) n);
        auto; lia.
Qed.

Theorem dec_body_inv l b l' : dec_body utf8 l = ROk (b, l') -> l = enc_body b ++ l' /\ batch_wf b.
Proof.
  unfold dec_body. destruct (rd_u64 SrcRead l) as [[want l1]| | |] eqn:R1; try discriminate. cbn [rbind].
  apply rd_u64_ok in R1 as [-> B1].
  destruct (rd_byte SrcRead l1) as [[tb l2]| | |] eqn:R2; try discriminate. cbn [rbind]. apply rd_byte_ok in R2.
  destruct (dec_tuniq tb) as [t| | |] eqn:R3; try discriminate. cbn [rbind].
  assert (T : tb = tuniq_code t /\ t <> TuIllegal).
  { unfold dec_tuniq in R3. destruct (b2n tb) as [|p] eqn:Q.
    - injection R3 as <-. split; [|discriminate]. apply b2n_inj. rewrite Q. reflexivity.
    - destruct p as [[|[]|]|[|[]|]|]; try discriminate; injection R3 as <-; (split; [|discriminate]); apply b2n_inj; rewrite Q; reflexivity. }
  destruct T as [-> T].
  destruct (rd_u64 SrcRead l2) as [[sv l3]| | |] eqn:R4; try discriminate. cbn [rbind]. apply rd_u64_ok in R4 as [-> B4].
  destruct (rd_u64 SrcRead l3) as [[cols l4]| | |] eqn:R5; try discriminate. cbn [rbind]. apply rd_u64_ok in R5 as [-> B5].
  destruct (dec_evs utf8 _ t cols want l4) as [[es l5]| | |] eqn:R6; try discriminate. cbn [rbind].
  apply dec_evs_inv in R6 as (-> & L6 & F6).
  destruct (rd_u64 SrcRead l5) as [[actual l6]| | |] eqn:R7; try discriminate. cbn [rbind]. apply rd_u64_ok in R7 as [-> B7].
  destruct (N.eqb_spec actual (N.of_nat (length es))) as [->|]; [|discriminate].
  intros H; injection H as <- <-. split.
  - rewrite enc_body_split. unfold ev_count. cbn [ba_want ba_tag ba_schema ba_cols ba_evs]. rewrite R2, <- !app_assoc. reflexivity.
  - unfold batch_wf, ev_count. cbn [ba_want ba_tag ba_schema ba_cols ba_evs]. auto 10.
Qed.

(** *** the adapter: with the checksum *)
Lemma firstn_body l1 (r : bytes) : firstn (length (l1 ++ r) - length r) (l1 ++ r) = l1.
Proof. rewrite app_length. replace (length l1 + length r - length r)%nat with (length l1) by lia. apply firstn_len_app. reflexivity. Qed.

Lemma batch_dec_bytes s e sfx : batch_wf e ->
  batch_dec utf8 0 s (batch_bytes e ++ sfx) = match finish s e with Some s' => Some (s', sfx) | None => None end.
Proof.
  intros W. unfold batch_dec, batch_bytes. change (0 mod 256 =? 0) with true. cbn [negb].
  rewrite <- app_assoc, dec_body_enc by auto. destruct (finish s e) as [s'|]; [|reflexivity].
  rewrite (take_app_k 8) by apply u64_len. rewrite firstn_body, u64_dec by apply crc64_lt.
  rewrite N.eqb_refl. reflexivity.
Qed.

(** what the adapter accepts: a batch the server can write, its checksum, applied *)
Lemma batch_dec_inv m s l s' l' : batch_dec utf8 m s l = Some (s', l') ->
  exists b, m mod 256 = 0 /\ batch_wf b /\ l = batch_bytes b ++ l' /\ finish s b = Some s'.
Proof.
  unfold batch_dec. destruct (N.eqb_spec (m mod 256) 0) as [M|]; [|discriminate]. cbn [negb].
  destruct (dec_body utf8 l) as [[b l1]| | |] eqn:D; try discriminate.
  apply dec_body_inv in D as [-> W]. destruct (finish s b) as [s1|] eqn:F; [|discriminate].
  destruct (take 8 l1) as [[ck l2]|] eqn:T; [|discriminate]. rewrite firstn_body.
  destruct (N.eqb_spec (crc64 (enc_body b)) (le_dec ck)) as [E|]; [|discriminate].
  intros H; injection H as <- <-. apply take_some in T as [-> T]. exists b. split; auto. split; auto. split; auto.
  unfold batch_bytes. rewrite E, u64_enc_dec, <- app_assoc by auto. reflexivity.
Qed.

Lemma batch_dec_suffix m s l s' l' : batch_dec utf8 m s l = Some (s', l') -> exists x, l = x ++ l'.
Proof. intros D. apply batch_dec_inv in D as (b & _ & _ & -> & _). eauto. Qed.

(** no batch's bytes are a beginning of another's *)
Lemma batch_bytes_prefix b e x y : batch_wf b -> batch_wf e -> batch_bytes b ++ x = batch_bytes e ++ y -> b = e /\ x = y.
Proof.
  unfold batch_bytes. rewrite <- !app_assoc. intros Wb We H.
  pose proof (dec_body_enc b (u64_le (crc64 (enc_body b)) ++ x) Wb) as D. rewrite H, dec_body_enc in D by auto.
  assert (b = e) as -> by congruence. split; auto. apply app_inv_head, app_inv_head in H. auto.
Qed.

Lemma batch_dec_cut s e p q : batch_wf e -> batch_bytes e = p ++ q -> q <> [] -> batch_dec utf8 0 s p = None.
Proof.
  intros W H Q. destruct (batch_dec utf8 0 s p) as [[s' l']|] eqn:D; auto.
  apply batch_dec_inv in D as (b & _ & Wb & -> & _). rewrite <- app_assoc in H.
  rewrite <- (app_nil_r (batch_bytes e)) in H. apply batch_bytes_prefix in H as [_ H]; auto.
  symmetry in H. apply app_eq_nil in H as [_ H]. contradiction.
Qed.

(** *** the writer *)
Variable cap : N.

Lemma dwrites_happy l : forall w d, happy cap w d ->
  exists w', dwrites cap w l = (w', WOk) /\ happy cap w' (d ++ concat l) /\
    w_ck w' = crc_update (w_ck w) (concat l) /\ w_part w' = crc_update (w_part w) (concat l).
Proof.
  induction l as [|b l IH]; intros w d H; cbn [dwrites concat].
  - exists w. rewrite app_nil_r. auto.
  - destruct (dtrack_write_happy cap _ _ b H) as (w1 & E1 & H1 & K1 & P1). rewrite E1. cbn [wseq].
    destruct (IH w1 _ H1) as (w2 & E2 & H2 & K2 & P2). exists w2. rewrite <- app_assoc in H2.
    rewrite K2, K1, P2, P1, !crc_update_app. auto.
Qed.

Lemma write_evs_happy l : forall w d, happy cap w d ->
  exists w', write_evs cap w l = (w', WOk) /\ happy cap w' (d ++ concat (map enc_bev l)) /\
    w_ck w' = crc_update (w_ck w) (concat (map enc_bev l)) /\ w_part w' = crc_update (w_part w) (concat (map enc_bev l)).
Proof.
  induction l as [|e l IH]; intros w d H; cbn [write_evs map concat].
  - exists w. rewrite app_nil_r. auto.
  - destruct (dwrites_happy (ev_pieces e) _ _ H) as (w1 & E1 & H1 & K1 & P1). rewrite E1. cbn [wseq].
    destruct (flush_buf_happy cap _ _ H1) as (w2 & E2 & H2 & _ & _ & K2 & P2). rewrite E2. cbn [wseq].
    destruct (IH w2 _ H2) as (w3 & E3 & H3 & K3 & P3). exists w3. rewrite <- app_assoc in H3.
    fold (enc_bev e) in H3, K1, P1. rewrite K3, K2, K1, P3, P2, P1, !crc_update_app. auto.
Qed.

Lemma batch_commit_happy w d e : batch_wf e -> happy cap w d -> w_part w = crc_new ->
  exists w', batch_commit cap w e = (w', WOk) /\ happy cap w' (d ++ batch_bytes e) /\
             w_ck w' = crc_update (w_ck w) (batch_bytes e) /\ w_part w' = crc_new.
Proof.
  intros _ H P. unfold batch_commit.
  destruct (dwrites_happy (head_pieces e) _ _ H) as (w1 & E1 & H1 & K1 & P1). rewrite E1. cbn [wseq].
  destruct (write_evs_happy (ba_evs e) _ _ H1) as (w2 & E2 & H2 & K2 & P2). rewrite E2. cbn [wseq].
  destruct (dwrites_happy (tail_pieces e) _ _ H2) as (w3 & E3 & H3 & K3 & P3). rewrite E3. cbn [wseq reset_partial].
  assert (C : crc_finish (w_part w3) = crc64 (enc_body e)).
  { rewrite P3, P2, P1, P. unfold crc64, enc_body. rewrite !crc_update_app. reflexivity. }
  rewrite C. set (w3' := mk_tw _ _ _ _ _ _).
  assert (H3' : happy cap w3' ((((d ++ concat (head_pieces e)) ++ concat (map enc_bev (ba_evs e))) ++ concat (tail_pieces e)))).
  { destruct H3 as [I N]. split; auto. }
  destruct (tracked_write_happy cap _ _ (u64_le (crc64 (enc_body e))) H3') as (w4 & E4 & H4 & K4 & P4).
  exists w4. split; auto. split; [|split].
  - unfold batch_bytes, enc_body. unfold enc_body in H4. rewrite <- !app_assoc in *. exact H4.
  - rewrite K4. unfold w3'. cbn [w_ck]. rewrite K3, K2, K1. unfold batch_bytes. rewrite crc_update_app. f_equal.
    unfold enc_body. rewrite !crc_update_app. reflexivity.
  - rewrite P4. reflexivity.
Qed.
End Codec.
